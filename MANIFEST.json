{
 "claims": [
  {
   "property": "C01",
   "status": "proved",
   "theorems": [
    "C01_contains_is_membership",
    "C01_new_exact",
    "C01_named_constructors"
   ],
   "note": ""
  },
  {
   "property": "C02",
   "status": "proved",
   "theorems": [
    "C02_intersect_exact"
   ],
   "note": ""
  },
  {
   "property": "C03",
   "status": "partial",
   "theorems": [
    "C03_intersects_wrong_iff_partial",
    "C03_intersects_complete_partial",
    "C03_intersects_exact_dense_partial",
    "C03_intersects_exact_closed_partial",
    "C03_intersects_refuted"
   ],
   "note": "REFUTED on discrete orders: (0,2) and (1,3) over the integers intersect() to a pointless Open(1,2), so intersects() is true (C03_intersects_refuted). Proved: a common point is always reported; exact on dense orders; exact for the shapes that include their bounds. The wrong answers are characterised exactly (C03_intersects_wrong_iff_partial)."
  },
  {
   "property": "C04",
   "status": "proved",
   "theorems": [
    "C04_complement_exact"
   ],
   "note": ""
  },
  {
   "property": "C05",
   "status": "proved",
   "theorems": [
    "C05_union_exact"
   ],
   "note": ""
  },
  {
   "property": "C06",
   "status": "proved",
   "theorems": [
    "C06_minus_exact"
   ],
   "note": ""
  },
  {
   "property": "C07",
   "status": "proved",
   "theorems": [
    "C07_enclose_smallest"
   ],
   "note": ""
  },
  {
   "property": "C08",
   "status": "partial",
   "theorems": [
    "C08_union_all_points_partial",
    "C08_union_all_sorted_partial",
    "C08_union_all_refuted",
    "C08_union_all_iff_partial"
   ],
   "note": "REFUTED: an interval bridging two earlier pieces is merged into only one of them, so pieces overlap (C08_union_all_refuted). Proved: the points are always exact; sorted input gives sorted, separated pieces. The pieces are apart exactly if Full is among the inputs or no interval touches two of the pieces before it (C08_union_all_iff_partial)."
  },
  {
   "property": "C09",
   "status": "partial",
   "theorems": [
    "C09_enclose_all_contains_partial",
    "C09_enclose_all_refuted"
   ],
   "note": "REFUTED: the fold starts from Full, so enclose_all is Full for every list (C09_enclose_all_refuted). Proved: every input point is contained."
  },
  {
   "property": "C10",
   "status": "proved",
   "theorems": [
    "C10_intersect_all_exact"
   ],
   "note": ""
  },
  {
   "property": "C11",
   "status": "proved",
   "theorems": [
    "C11_round_trip",
    "C11_integers_meet_contract",
    "C11_builtin",
    "C11_injective"
   ],
   "note": "For every type meeting the stated text contract, and the contract is proved for every integer type (a model of the std integer Display/FromStr)."
  },
  {
   "property": "C12",
   "status": "proved",
   "theorems": [
    "C12_total",
    "C12_invalid"
   ],
   "note": ""
  },
  {
   "property": "C13",
   "status": "partial",
   "theorems": [
    "C13_language_partial",
    "C13_strict_partial",
    "C13_complete_partial",
    "C13_integer_language",
    "C13_strict_refuted"
   ],
   "note": "REFUTED: \"\u00d8garbage\", \"(-\u221ejunk,5)\", \"[3,foo\u221e)\" are accepted and (3,3] is read as the point 3 (C13_strict_refuted). Proved: the exact accepted language; without such junk an accepted string denotes the result, and all interval notation is accepted."
  },
  {
   "property": "C14",
   "status": "proved",
   "theorems": [
    "C14_bound_combinators",
    "C14_bound_algebra"
   ],
   "note": ""
  },
  {
   "property": "C15",
   "status": "proved",
   "theorems": [
    "C15_normalize_exact"
   ],
   "note": ""
  },
  {
   "property": "C16",
   "status": "partial",
   "theorems": [
    "C16_normalize_iff_partial",
    "C16_normalize_canonical_partial",
    "C16_normalize_idempotent_partial",
    "C16_normalize_refuted"
   ],
   "note": "REFUTED: (3,5) normalizes to Closed(4,4), not Point(4); (3,4) to the inverted Closed(4,3), not Empty (C16_normalize_refuted). Proved: canonical for two or more points, idempotent. Two normalized forms are equal exactly when the points agree, both or neither input was written as a Point, and, if pointless and one is Open, the inputs are identical (C16_normalize_iff_partial)."
  },
  {
   "property": "C17",
   "status": "partial",
   "theorems": [
    "C17_denormalize_exact_partial",
    "C17_denormalize_normalized_partial",
    "C17_denormalize_refuted",
    "C17_denormalize_half_partial",
    "C17_denormalize_open"
   ],
   "note": "REFUTED for every To(p)/From(p): denormalizing loses their two outermost values (C17_denormalize_refuted, C17_denormalize_half_partial). Proved: exact on all other shapes, in particular on everything normalize() returns."
  },
  {
   "property": "C18",
   "status": "proved",
   "theorems": [
    "C18_integer_finite_lawful"
   ],
   "note": ""
  },
  {
   "property": "C19",
   "status": "proved",
   "theorems": [
    "C19_intervals_closed"
   ],
   "note": ""
  },
  {
   "property": "C20",
   "status": "partial",
   "theorems": [
    "C20_enclose_iff_partial",
    "C20_enclose_empty",
    "C20_union_iff_partial",
    "C20_constructors_exact",
    "C20_operations_exact",
    "C20_operations_exact_vacuous_partial",
    "C20_operations_refuted"
   ],
   "note": "Constructors exact without restriction; all operations exact on intervals made without an open pair of neighbours (x, x+1). With such vacuous intervals intersect/minus/complement stay exact and union too if one side has a point. REFUTED otherwise: (3,4) union (4,5) contains 4, and enclose counts the phantom bounds (C20_operations_refuted). Exact: union adds a value iff both intervals have no values and one ends where the other begins (C20_union_iff_partial); enclose is the hull iff each interval without values lies within the bounds of the other (C20_enclose_iff_partial)."
  },
  {
   "property": "C21",
   "status": "partial",
   "theorems": [
    "C21_is_empty_iff_partial",
    "C21_is_empty_exact_partial",
    "C21_is_empty_sound_partial",
    "C21_is_empty_refuted"
   ],
   "note": "REFUTED: Interval::open(3,4) contains nothing but is_empty() is false (C21_is_empty_refuted). Proved: exact when no constructor was applied to an open pair of neighbours; is_empty() always implies no points. Wrong exactly on intervals whose upper bound is just before the lower one (C21_is_empty_iff_partial)."
  },
  {
   "property": "C22",
   "status": "partial",
   "theorems": [
    "C22_equality_iff_partial",
    "C22_equality_partial",
    "C22_equality_empty_partial",
    "C22_equality_refuted"
   ],
   "note": "REFUTED: Interval::open(3,5) != Interval::point(4) (C22_equality_refuted). Proved: equality is set equality for intervals with two or more points, and for pointless ones made without gaps. Over all intervals equality is that of bounds and is_degenerate (C22_equality_iff_partial)."
  },
  {
   "property": "C23",
   "status": "partial",
   "theorems": [
    "C23_iteration_hollow_partial",
    "C23_iteration_exact_partial",
    "C23_iteration_exact_strict_partial",
    "C23_iteration_refuted"
   ],
   "note": "REFUTED: iterating Interval::open(3,4) yields 4 (C23_iteration_refuted). Proved for every interval that is_empty or has a point, in particular for everything made without gaps: any schedule of next/next_back behaves as a deque of the ascending points. On the vacuous ones exactly one bound is yielded, then nothing (C23_iteration_hollow_partial)."
  },
  {
   "property": "C24",
   "status": "partial",
   "theorems": [
    "C24_size_iff_partial",
    "C24_size_hollow_partial",
    "C24_size_partial",
    "C24_size_unsigned_partial",
    "C24_size_empty",
    "C24_size_refuted"
   ],
   "note": "REFUTED: [-100,100] over i8 panics in debug and gives -56 in release (C24_size_refuted). Proved: exact if and only if the difference is representable; always exact for unsigned types, save intervals without values that are not is_empty, where size panics or is MAX (C24_size_hollow_partial); exact condition for every interval in C24_size_iff_partial."
  },
  {
   "property": "C25",
   "status": "partial",
   "theorems": [
    "C25_ranges_exact_partial",
    "C25_ranges_refuted"
   ],
   "note": "REFUTED for every a..a: an empty std range becomes the one-point interval (C25_ranges_refuted). Proved exact for all other ranges."
  },
  {
   "property": "C26",
   "status": "partial",
   "theorems": [
    "C26_union_iff_partial",
    "C26_union_pieces_partial",
    "C26_union_refuted"
   ],
   "note": "REFUTED: [0,4] union [5,6] is left as two adjacent pieces (C26_union_refuted). Proved: exact description of the pieces (merged iff a common point exists); the pieces are apart exactly if the operands are not disjoint and side by side (C26_union_iff_partial)."
  },
  {
   "property": "C27",
   "status": "proved",
   "theorems": [
    "C27_tine_order",
    "C27_tines_arising"
   ],
   "note": "For all tines but Point(Infinite), which no operation of the crate produces (C27_tines_arising)."
  },
  {
   "property": "C28",
   "status": "partial",
   "theorems": [
    "C28_tine_union_exact",
    "C28_tine_intersect_exact_partial",
    "C28_tine_minus_exact_partial",
    "C28_tine_refuted"
   ],
   "note": "Union table exact. REFUTED for intersect (2 wrong cells) and minus (8 wrong cells): the theorems state exactly which cells are right (C28_tine_refuted gives instances)."
  },
  {
   "property": "C29",
   "status": "proved",
   "theorems": [
    "C29_union_in_place"
   ],
   "note": "Well-formed trees are exactly those the public constructors, union, complement and intersect build (tree_wf_iff_built)."
  },
  {
   "property": "C30",
   "status": "proved",
   "theorems": [
    "C30_union_semilattice",
    "C30_equality",
    "C30_collect"
   ],
   "note": ""
  },
  {
   "property": "C31",
   "status": "proved",
   "theorems": [
    "C31_complement"
   ],
   "note": ""
  },
  {
   "property": "C32",
   "status": "proved",
   "theorems": [
    "C32_de_morgan"
   ],
   "note": ""
  },
  {
   "property": "C33",
   "status": "proved",
   "theorems": [
    "C33_interval_iter"
   ],
   "note": ""
  },
  {
   "property": "C34",
   "status": "partial",
   "theorems": [
    "C34_both_ends_iff_partial",
    "C34_selection_iff_partial",
    "C34_forward_partial",
    "C34_both_ends_partial",
    "C34_both_ends_refuted"
   ],
   "note": "REFUTED: on (0,2) U (2,4) the second next_back() yields Empty in release and panics in debug (C34_both_ends_refuted). Proved: forward iteration on every tree; reverse iteration, and with it every interleaving, is right exactly on the trees where no interval ends and the next starts at one excluded point (C34_both_ends_iff_partial); for the interval iterator of a union-built Selection, exactly when there is no lone gap (C34_selection_iff_partial). What comes out on the others is C108, C109 and C110."
  },
  {
   "property": "C35",
   "status": "proved",
   "theorems": [
    "C35_equality_dense"
   ],
   "note": ""
  },
  {
   "property": "C36",
   "status": "partial",
   "theorems": [
    "C36_minus_in_place_partial",
    "C36_minus_in_place_refuted"
   ],
   "note": "REFUTED: removing the absent point 3 from [0,3) leaves half an interval and contains() then panics; removing (0,2) from (0,2) U (2,4) adds the point 2 (C36_minus_in_place_refuted). Proved: never panics, never drops a point it should keep, can add only end points of the interval; exact domain in C37."
  },
  {
   "property": "C37",
   "status": "proved",
   "theorems": [
    "C37_minus_tree_result",
    "C37_minus_domain",
    "C37_minus_tree",
    "C37_minus_tree_domain"
   ],
   "note": "Exact domain as an if-and-only-if for minus_in_place, and for the whole-tree minus on dense types without end points (C37_minus_tree_domain); a sufficient condition for it on every ordered type, and the exact result of minus there when no single point of the second tree is an excluded end in the first (C37_minus_tree_result)."
  },
  {
   "property": "C38",
   "status": "partial",
   "theorems": [
    "C38_intersect_partial",
    "C38_intersect_refuted",
    "C38_intersect_result_partial",
    "C38_intersect_iff_partial",
    "C38_intersect_self_partial"
   ],
   "note": "REFUTED: a.intersect(a) and a.intersect(full) lose points for a = [0,1] U [3,4] (C38_intersect_refuted). Proved: the exact result for all trees, as the walk the code performs (C38_intersect_result_partial), exact if every meeting pair is visited, and on dense orders only then; a.intersect(a) keeps just the first interval. Soundness is C39."
  },
  {
   "property": "C39",
   "status": "proved",
   "theorems": [
    "C39_intersect_sound"
   ],
   "note": ""
  },
  {
   "property": "C40",
   "status": "partial",
   "theorems": [
    "C40_intersect_in_place_partial",
    "C40_intersect_in_place_refuted"
   ],
   "note": "REFUTED: [0,3] intersect_in_place [0,5] panics, (0,3) with [6,7] gives [6,7] (C40_intersect_in_place_refuted). Proved for Empty, Full, points and the empty tree; exact domain in C41."
  },
  {
   "property": "C41",
   "status": "proved",
   "theorems": [
    "C41_intersect_domain_exact",
    "C41_intersect_domain_iff",
    "C41_intersect_inside"
   ],
   "note": "The domain is sufficient for every ordered type and also necessary on dense types without end points."
  },
  {
   "property": "C42",
   "status": "proved",
   "theorems": [
    "C42_enclose_contains",
    "C42_enclose_smallest"
   ],
   "note": ""
  },
  {
   "property": "C43",
   "status": "proved",
   "theorems": [
    "C43_set_semantics",
    "C43_no_panic"
   ],
   "note": ""
  },
  {
   "property": "C44",
   "status": "partial",
   "theorems": [
    "C44_complement_minus_in_place_partial",
    "C44_complement_minus_partial",
    "C44_minus_all_partial",
    "C44_minus_in_place_partial",
    "C44_minus_in_place_exact_partial",
    "C44_minus_in_place_right_partial",
    "C44_minus_exact_partial",
    "C44_minus_refuted"
   ],
   "note": "REFUTED: {1,3} minus 3 gives {1,2}, in place or not; a difference whose right side came from complement() can leave a tree on which contains() panics (C44_minus_refuted). Proved: nothing is lost, nothing of the interval stays, only the two neighbours of the interval can appear wrongly; for Selections built by unions the exact result, so it is right when no neighbour of the interval is a lone gap. Exact, without conditions, on complements of such Selections (C44_complement_minus_in_place_partial, C44_complement_minus_partial); for any program minus a union-built Selection, extras can only stand next to a value of the other (C44_minus_all_partial)."
  },
  {
   "property": "C45",
   "status": "partial",
   "theorems": [
    "C45_complement_partial",
    "C45_intersect_sound_partial",
    "C45_intersect_single_partial",
    "C45_intersect_refuted",
    "C45_intersect_result_partial",
    "C45_intersect_self_partial"
   ],
   "note": "REFUTED: {1,3} intersected with itself is {1}; intersects() misses a common point of {1,4} and {4} and claims one for {1} and {2} (C45_intersect_refuted). Proved: never panics, never adds a point; exact when self is one interval meeting every interval of other; for Selections built by unions, the exact result as the walk the code performs, and a.intersect(a) keeps just the first interval. When one side is a complement of a union-built Selection: the exact result, domain and answer of intersects, where only intervals with a common value count as meeting (C45_complement_partial)."
  },
  {
   "property": "C46",
   "status": "partial",
   "theorems": [
    "C46_complement_partial",
    "C46_intersect_in_place_partial",
    "C46_intersect_in_place_refuted"
   ],
   "note": "REFUTED in both builds: {0,5} with [2,3] panics, [1,2] with [0,5] leaves a tree on which contains() panics (C46_intersect_in_place_refuted). Proved exact when both ends of the interval are in the Selection or next to one of its values; on complements of union-built Selections when the ends and the values beyond them are members (C46_complement_partial). Exact domains for both: C72."
  },
  {
   "property": "C47",
   "status": "partial",
   "theorems": [
    "C47_unions_iff_partial",
    "C47_complements_partial",
    "C47_mixed_partial",
    "C47_equal_same_points_partial",
    "C47_equality_refuted"
   ],
   "note": "REFUTED: the complement of [-128,2] contains the same values as [3,127] and is unequal to it (C47_equality_refuted). Proved: equal Selections contain the same values; the converse without complement is C48. Exact: Selections built by unions, also of intervals without values, are equal iff they yield the same intervals; complements of Selections built by unions are equal iff they have the same values; a union-built Selection equals such a complement iff both are empty or both full."
  },
  {
   "property": "C48",
   "status": "proved",
   "theorems": [
    "C48_canonical",
    "C48_order"
   ],
   "note": ""
  },
  {
   "property": "C49",
   "status": "partial",
   "theorems": [
    "C49_iteration_partial",
    "C49_iteration_refuted",
    "C49_iteration_all_partial",
    "C49_complete_all_partial",
    "C49_exact_iff_partial"
   ],
   "note": "REFUTED: Selections that contain nothing but were made from an open pair of neighbours, by intersect or by nested complements yield a value (C49_iteration_refuted). Proved exact for every program without such inputs, without intersect and with complements of unions only. For all programs: ascending, all members, plus exactly one value for each pointless interval stored (C49_iteration_all_partial), so exact iff none is (C49_exact_iff_partial)."
  },
  {
   "property": "C50",
   "status": "partial",
   "theorems": [
    "C50_complement_partial",
    "C50_runs_iff_partial",
    "C50_interval_runs_partial",
    "C50_single_partial",
    "C50_interval_runs_refuted",
    "C50_points_all_partial"
   ],
   "note": "REFUTED: an interval without points is yielded for (3,4) and for an empty De Morgan intersection; the interval yielded for one point is unequal to Interval::point (C50_interval_runs_refuted). Proved for Selections built by unions. For all programs the intervals hold exactly the members, in ascending order (C50_points_all_partial). Exact for all programs: the intervals are the maximal runs iff each has a value and none ends just before the next begins (C50_runs_iff_partial). Proved, on every schedule, for complements of union-built Selections (C50_complement_partial)."
  },
  {
   "property": "C51",
   "status": "partial",
   "theorems": [
    "C51_reverse_iff_partial",
    "C51_any_schedule_partial",
    "C51_meet_iff_partial",
    "C51_complement_partial",
    "C51_reverse_partial",
    "C51_single_partial",
    "C51_reverse_refuted"
   ],
   "note": "REFUTED: {1,3} from the back panics in debug and loses 1 in release; mixing next and next_back takes both from the front interval (C51_reverse_refuted). Proved for union-built Selections: the reverse is right exactly when no two intervals are one missing value apart (C51_reverse_iff_partial); then every schedule yields each member at most once and None only after all of them (C51_any_schedule_partial); the two ends meet in the middle exactly when moreover the members are consecutive or no two are (C51_meet_iff_partial). On complements of union-built Selections the reverse and every schedule are right in that sense whatever is missing (C51_complement_partial). What comes out on the others is C108, C109 and C110."
  },
  {
   "property": "C52",
   "status": "partial",
   "theorems": [
    "C52_bounds_iff_partial",
    "C52_bounds_partial",
    "C52_bounds_refuted",
    "C52_bounds_all_partial"
   ],
   "note": "REFUTED for the Selection of an open pair of neighbours (C52_bounds_refuted). Proved for every program without such inputs, without intersect and with complements of unions only. For all programs every member lies between the bounds (C52_bounds_all_partial). A bound is the extreme member exactly if the first (last) interval yielded has a value (C52_bounds_iff_partial)."
  },
  {
   "property": "C53",
   "status": "partial",
   "theorems": [
    "C53_complement_partial",
    "C53_extremes_partial",
    "C53_extremes_refuted",
    "C53_extremes_all_partial"
   ],
   "note": "REFUTED: the infimum of [-2,4] is -3 (C53_extremes_refuted). Proved: for Selections built by unions infimum is the predecessor of the least value and supremum the successor of the greatest; for all programs no member lies outside them. For complements of Selections built by unions infimum and supremum are the least and greatest value (none at the end of the type)."
  },
  {
   "property": "C54",
   "status": "partial",
   "theorems": [
    "C54_enclose_iff_partial",
    "C54_enclose_partial",
    "C54_enclose_refuted",
    "C54_enclose_all_partial"
   ],
   "note": "REFUTED for Selections of open pairs of neighbours (C54_enclose_refuted). Proved for every program without such inputs, without intersect and with complements of unions only. For all programs every member is enclosed. Exact for all programs: the hull is right iff there is at most one interval or both outer intervals have values (C54_enclose_iff_partial)."
  },
  {
   "property": "C55",
   "status": "partial",
   "theorems": [
    "C55_complement_partial",
    "C55_closure_partial",
    "C55_closure_refuted",
    "C55_closure_all_partial"
   ],
   "note": "REFUTED: the closure of [1,3] is [0,4] (C55_closure_refuted). Proved: for Selections built by unions the closure is one value too large on each side; for all programs it contains the enclosing interval and every member. For complements of Selections built by unions the closure is exact."
  },
  {
   "property": "C56",
   "status": "partial",
   "theorems": [
    "C56_is_empty_iff_partial",
    "C56_is_full_iff_partial",
    "C56_sound_partial",
    "C56_is_empty_partial",
    "C56_is_full_partial",
    "C56_refuted"
   ],
   "note": "REFUTED: the union of complement([3,127]) and complement([-128,2]) contains everything but is_full() is false; the Selection of (3,4) is not is_empty() (C56_refuted). Proved: true answers are always right; exact for is_empty without intersect, nested complements or vacuous inputs, and for is_full on unions. For all programs is_empty holds exactly if no interval is yielded, and is_full exactly if one is and neither infimum nor supremum is given (C56_is_full_iff_partial)."
  },
  {
   "property": "C57",
   "status": "partial",
   "theorems": [
    "C57_release_follows_debug",
    "C57_debug_agrees_partial",
    "C57_debug_refuted"
   ],
   "note": "Proved for every tree, malformed or not: if the debug build returns, the release build returns the same. Proved: both return and agree on well-formed trees for all operations except intersect_in_place, whole-tree minus and next_back, where C57_debug_refuted shows debug panics with a release result (exactly when: C101 for intersect_in_place, C109 for next_back alone)."
  },
  {
   "property": "C58",
   "status": "partial",
   "theorems": [
    "C58_infimum_iff_partial",
    "C58_bounds_delimit",
    "C58_infimum_bounds_partial",
    "C58_infimum_dense_partial",
    "C58_infimum_refuted"
   ],
   "note": "REFUTED on discrete orders: the infimum of the raw (0,5) over Z is 0, the greatest lower bound is 1 (C58_infimum_refuted). Proved: bounds delimit and rebuild the interval; infimum/supremum bound the points on every order, and are the exact greatest lower / least upper bound on dense orders without end points. Exact on every order: infimum of an interval with a value is the greatest lower bound iff that end is included or there is no least value; supremum likewise (C58_infimum_iff_partial)."
  },
  {
   "property": "C59",
   "status": "partial",
   "theorems": [
    "C59_empty_iff_partial",
    "C59_full_iff_partial",
    "C59_sound_partial",
    "C59_dense_partial",
    "C59_refuted"
   ],
   "note": "REFUTED on discrete or bounded types: (0,1) over Z contains nothing and is not is_empty(), [-128,->) over i8 contains everything and is not is_full() (C59_refuted). Proved: true answers are right on every order; exact on dense orders without end points. Exact on every order: which intervals without values are not is_empty and which with all values are not is_full (C59_empty_iff_partial, C59_full_iff_partial)."
  },
  {
   "property": "C60",
   "status": "partial",
   "theorems": [
    "C60_smallest_iff_partial",
    "C60_closure_partial",
    "C60_closure_smallest_partial",
    "C60_closure_refuted"
   ],
   "note": "REFUTED on discrete orders: closure of the raw (0,5) over Z is [0,5] though [1,4] contains the same points (C60_closure_refuted). Proved: closed ends, idempotent, adds only infimum and supremum; smallest on dense orders without end points. Exact on every order: the closure is smallest iff no excluded end is next to a least or greatest value of the interval (C60_smallest_iff_partial)."
  },
  {
   "property": "C61",
   "status": "proved",
   "theorems": [
    "C61_adjacent",
    "C61_merge_dense"
   ],
   "note": "The characterisation of adjacency holds for every ordered type; merging is proved for dense orders without end points (on discrete orders C03/C08 have the refutations)."
  },
  {
   "property": "C62",
   "status": "partial",
   "theorems": [
    "C62_bounds_all_partial",
    "C62_bounds_partial",
    "C62_bounds_refuted"
   ],
   "note": "REFUTED for open pairs of neighbours: (3,4) contains nothing and reports infimum 4 and supremum 3 (C62_bounds_refuted). Proved for every interval built without such inputs. For all intervals, what the bounds are otherwise: C62_bounds_all_partial."
  },
  {
   "property": "C63",
   "status": "partial",
   "theorems": [
    "C63_classes_all_partial",
    "C63_classes_partial",
    "C63_classes_refuted"
   ],
   "note": "REFUTED: open(3,5) contains only 4 and is proper, not degenerate; open(3,4) contains nothing and is proper and non-empty (C63_classes_refuted). Proved for intervals built without vacuous inputs: degenerate implies one point, two points imply proper, proper implies a point, into_non_empty exact. For every Interval: degenerate iff made by point; a proper one holds one value iff its bounds agree and none iff they are crossed (C63_classes_all_partial)."
  },
  {
   "property": "C64",
   "status": "proved",
   "theorems": [
    "C64_adjacent_all",
    "C64_intersects",
    "C64_adjacent"
   ],
   "note": ""
  },
  {
   "property": "C65",
   "status": "partial",
   "theorems": [
    "C65_interval_all_partial",
    "C65_enclose_refuted",
    "C65_raw_intersect",
    "C65_raw_enclose",
    "C65_interval_algebra"
   ],
   "note": "REFUTED for Intervals made from an open pair of neighbours: enclose((3,4), (3,4)) is empty, so enclose is not associative (C65_enclose_refuted). Proved for all other Intervals; for every Interval all but that, and that if of each two neighbours in the triple one has a value (C65_interval_all_partial)."
  },
  {
   "property": "C66",
   "status": "proved",
   "theorems": [
    "C66_bound_adapters"
   ],
   "note": ""
  },
  {
   "property": "C67",
   "status": "partial",
   "theorems": [
    "C67_is_bounded_all_partial",
    "C67_sides_bounded",
    "C67_is_bounded_partial",
    "C67_is_bounded_refuted"
   ],
   "note": "REFUTED: is_bounded() of the empty Selection is false (C67_is_bounded_refuted), unlike Interval::empty(). Proved: left/right/half answers for every Selection; is_bounded is true iff a value is contained, for programs without vacuous inputs, without intersect and with complements of unions only. For all programs is_bounded is the negation of is_empty."
  },
  {
   "property": "C68",
   "status": "proved",
   "theorems": [
    "C68_collect_sorts",
    "C68_collect_equal"
   ],
   "note": ""
  },
  {
   "property": "C69",
   "status": "proved",
   "theorems": [
    "C69_algebra",
    "C69_extend"
   ],
   "note": ""
  },
  {
   "property": "C70",
   "status": "proved",
   "theorems": [
    "C70_by_complement"
   ],
   "note": ""
  },
  {
   "property": "C71",
   "status": "partial",
   "theorems": [
    "C71_round_trip_all_partial",
    "C71_round_trip_iff_partial",
    "C71_round_trip_partial",
    "C71_round_trip_refuted"
   ],
   "note": "REFUTED as ==: the intervals of complement([0,4]) collected again are unequal to it (C71_round_trip_refuted). Proved: same values for programs without vacuous inputs, without intersect and with complements of unions only; == for Selections built by unions. For all programs the values are the same (C71_round_trip_all_partial). Exact for all programs: the collected Selection is equal iff the original can be built by unions (C71_round_trip_iff_partial)."
  },
  {
   "property": "C72",
   "status": "proved",
   "theorems": [
    "C72_complement_domain",
    "C72_intersect_in_place_domain"
   ],
   "note": "If-and-only-if; the same Selection and interval classes as C46; for complements of union-built Selections C72_complement_domain."
  },
  {
   "property": "C73",
   "status": "proved",
   "theorems": [
    "C73_tree_intersect_enough",
    "C73_tree_intersect_domain"
   ],
   "note": "If-and-only-if on dense types without end points; sufficient on every ordered type (C73_tree_intersect_enough)."
  },
  {
   "property": "C74",
   "status": "proved",
   "theorems": [
    "C74_intersect_exact",
    "C74_intersect_domain"
   ],
   "note": "Exact result, and an if-and-only-if for correctness."
  },
  {
   "property": "C75",
   "status": "proved",
   "theorems": [
    "C75_intersects_exact"
   ],
   "note": ""
  },
  {
   "property": "C76",
   "status": "proved",
   "theorems": [
    "C76_minus_in_place_domain",
    "C76_minus_domain"
   ],
   "note": "If-and-only-if for both operations, on Selections built by unions."
  },
  {
   "property": "C77",
   "status": "proved",
   "theorems": [
    "C77_both_ends_domain"
   ],
   "note": "Same statement as C34_both_ends_iff_partial, listed as the exact behaviour."
  },
  {
   "property": "C78",
   "status": "proved",
   "theorems": [
    "C78_reverse_domain",
    "C78_any_schedule"
   ],
   "note": "Same statements as C51_reverse_iff_partial, C51_meet_iff_partial and C51_any_schedule_partial."
  },
  {
   "property": "C79",
   "status": "proved",
   "theorems": [
    "C79_iteration_exact"
   ],
   "note": "Same statements as C49_iteration_all_partial and C49_exact_iff_partial."
  },
  {
   "property": "C80",
   "status": "proved",
   "theorems": [
    "C80_is_empty_exact"
   ],
   "note": ""
  },
  {
   "property": "C81",
   "status": "proved",
   "theorems": [
    "C81_interval_eq_exact"
   ],
   "note": ""
  },
  {
   "property": "C82",
   "status": "proved",
   "theorems": [
    "C82_raw_intersects_exact"
   ],
   "note": ""
  },
  {
   "property": "C83",
   "status": "proved",
   "theorems": [
    "C83_ranges_exact"
   ],
   "note": ""
  },
  {
   "property": "C84",
   "status": "proved",
   "theorems": [
    "C84_size_domain"
   ],
   "note": ""
  },
  {
   "property": "C85",
   "status": "proved",
   "theorems": [
    "C85_outer_exact"
   ],
   "note": ""
  },
  {
   "property": "C86",
   "status": "proved",
   "theorems": [
    "C86_language"
   ],
   "note": "Same statement as C13_language_partial; together with C12 it fixes the result for every string up to which error is reported (C92)."
  },
  {
   "property": "C87",
   "status": "partial",
   "theorems": [
    "C87_interval_iter_fused",
    "C87_tree_iter_fused",
    "C87_tree_iter_fused_back",
    "C87_sel_interval_iter_fused",
    "C87_sel_interval_iter_fused_back",
    "C87_tree_iter_other_end_refuted",
    "C87_sel_iter_front_partial",
    "C87_sel_iter_fused_partial",
    "C87_sel_iter_refuted",
    "C87_tree_iter_back_iff",
    "C87_selection_back_iff_partial",
    "C87_complement_partial"
   ],
   "note": "REFUTED for the values of a Selection: on {1,3,5,7,9} after one next() and one next_back() the next next() returns None and the one after it 5, in both builds (C87_sel_iter_refuted); None from next_back() of the interval iterators does not finish next() (C87_tree_iter_other_end_refuted). Proved for every Interval, for next() of the interval iterators of every tree and Selection, for every Selection used from the front only, and for union-built Selections without a single missing value under every schedule. A None from next_back() finishes both ends of a tree's interval iterator exactly when no interval ends and the next begins at one excluded point (C87_tree_iter_back_iff), of a union-built Selection's iterators exactly when no single value is missing (C87_selection_back_iff_partial), and of their complements always (C87_complement_partial)."
  },
  {
   "property": "C88",
   "status": "proved",
   "theorems": [
    "C88_bound_exact",
    "C88_raw_exact",
    "C88_interval_exact",
    "C88_tree_round_trip",
    "C88_selection_round_trip",
    "C88_selection_injective"
   ],
   "note": "Serde is modelled by its data model (MSerde.v); the format is the identity."
  },
  {
   "property": "C89",
   "status": "partial",
   "theorems": [
    "C89_interval_iff_partial",
    "C89_reads_iff_partial",
    "C89_usable_iff_partial",
    "C89_first_next_partial",
    "C89_first_next_back_partial",
    "C89_first_panics",
    "C89_no_panic_partial",
    "C89_interval_refuted",
    "C89_selection_refuted",
    "C89_read_exact"
   ],
   "note": "REFUTED: (2,8) over i8 is accepted as an Interval, is unequal to [3,7] and panics when iterated; a lone Upper tine is accepted as a Selection on which every query panics; Point(Infinite) panics while reading (C89_interval_refuted, C89_selection_refuted). Proved: other lists of tines at distinct values are read without panic as the ordered set of them. Exact for every input: when reading panics, when it is an error, and otherwise that it gives the first tine at each place in order (C89_read_exact). Exact: an Interval is one the API makes iff it is empty, or has included bounds in order or crossed by one step (C89_interval_iff_partial); a set of tines is well-formed iff iterating it and its complement does not panic in a debug build (C89_reads_iff_partial, C89_usable_iff_partial). The first next()/next_back() of any accepted Interval panics iff the bound at its end is not included, and otherwise does what the properly made Interval does, save for two shapes that are described (C89_first_next_partial, C89_first_next_back_partial, C89_first_panics)."
  },
  {
   "property": "C90",
   "status": "partial",
   "theorems": [
    "C90_side_closed",
    "C90_side_bounded",
    "C90_empty",
    "C90_open_exact",
    "C90_open_refuted"
   ],
   "note": "REFUTED for the open/closed questions on deserialised shapes: (2,8) is not is_left_open(), (2,8] is is_open(), (<-,8] is not is_closed() (C90_open_refuted); exactly what they answer is C90_open_exact. Proved for the others."
  },
  {
   "property": "C91",
   "status": "partial",
   "theorems": [
    "C91_contains_any",
    "C91_operations_any",
    "C91_intersects_any",
    "C91_union_partial",
    "C91_union_refuted",
    "C91_interval_contains_any",
    "C91_interval_refuted",
    "C91_tree_refuted",
    "C91_union_iff_partial",
    "C91_tree_exact_partial",
    "C91_tree_iff_partial",
    "C91_interval_exact_partial",
    "C91_interval_iter_partial"
   ],
   "note": "REFUTED: [5,2] union (2,0) contains 2; Interval::from(Closed(5,2)) contains nothing, is not empty and yields 5; its Selection and tree panic with debug assertions, and without them the tree claims 3. Proved for all values: contains, complement, intersect, minus, Interval::from(..).contains; enclose, closure and union lose nothing; union is exact if one operand is in order or contains a point, and otherwise adds at most the one value where one operand begins and the other ends (C91_union_iff_partial). The tree answers like the interval exactly when the ends are in order, or at one value and both included or both excluded; otherwise its answers are given exactly: ends out of order panic in debug and answer for the swapped ends in release, and mixed ends at one value hold that value. Interval::from any raw interval is is_empty or has two included bounds; with bounds in order its values and its Selection are right, with bounds out of order one bound comes out, and its Selection is right exactly when fewer than two values lie strictly between them (C91_interval_iter_partial)."
  },
  {
   "property": "C92",
   "status": "proved",
   "theorems": [
    "C92_errors_exact",
    "C92_integer_errors"
   ],
   "note": "If-and-only-if for both errors and for each integer error kind; with C86 this fixes the result for every string."
  },
  {
   "property": "C93",
   "status": "proved",
   "theorems": [
    "C93_both_ends",
    "C93_history",
    "C93_iteration",
    "C93_queries"
   ],
   "note": "The conditions on minus and intersect_in_place are the domains outside which the code is wrong (C44, C46, C72, C76). Infimum and supremum are the extreme value or its outer neighbour, as C53 refutes the former."
  },
  {
   "property": "C94",
   "status": "proved",
   "theorems": [
    "C94_comparable",
    "C94_algebra",
    "C94_equality",
    "C94_incomparable",
    "C94_total",
    "C94_nan"
   ],
   "note": "MBoundP.v; instances: every Ord type and IEEE floats as specified in Coq.Floats.SpecFloat."
  },
  {
   "property": "C95",
   "status": "proved",
   "theorems": [
    "C95_outer",
    "C95_full_empty"
   ],
   "note": ""
  },
  {
   "property": "C96",
   "status": "proved",
   "theorems": [
    "C96_raw",
    "C96_tree",
    "C96_program",
    "C96_set_semantics",
    "C96_congruence",
    "C96_raw_queries",
    "C96_interval",
    "C96_selection",
    "C96_schedules"
   ],
   "note": "C96_raw, C96_tree and C96_program assume nothing about cmp, not even that it is an order."
  },
  {
   "property": "C97",
   "status": "proved",
   "theorems": [
    "C97_consistent",
    "C97_distinguishes",
    "C97_selection"
   ],
   "note": "MHash.v: what is written to the Hasher, as a sequence of tokens; Hasher::finish is any function of it."
  },
  {
   "property": "C98",
   "status": "proved",
   "theorems": [
    "C98_program",
    "C98_step"
   ],
   "note": ""
  },
  {
   "property": "C99",
   "status": "proved",
   "theorems": [
    "C99_reverse",
    "C99_not",
    "C99_raw",
    "C99_tree",
    "C99_interval",
    "C99_kinds",
    "C99_program",
    "C99_history"
   ],
   "note": ""
  },
  {
   "property": "C100",
   "status": "partial",
   "theorems": [
    "C100_intersect_refuted",
    "C100_minus_refuted",
    "C100_minus_one_partial",
    "C100_minus_tree_partial",
    "C100_minus_unions_partial"
   ],
   "note": "Refuted for intersect ({3} with {1, 3}) and for minus; the in-place operations and union are symmetric (C99), and so is minus of at most one interval, of a tree none of whose single points is an excluded end in the other, and of every Selection built by unions."
  },
  {
   "property": "C101",
   "status": "proved",
   "theorems": [
    "C101_complement",
    "C101_complement_apart",
    "C101_complement_cases",
    "C101_intersect_panics",
    "C101_release",
    "C101_selection",
    "C101_clear",
    "C101_cases"
   ],
   "note": "If-and-only-if; the conditions use the vocabulary of C41 (trees) and C72 (Selections). Complements of union-built Selections: C101_complement, with C72_complement_domain and C101_complement_apart for the other two cases."
  },
  {
   "property": "C102",
   "status": "proved",
   "theorems": [
    "C102_raw",
    "C102_tree"
   ],
   "note": "Derived from C96 by restricting the element type to the values of the arguments; no law of cmp is used."
  },
  {
   "property": "C103",
   "status": "proved",
   "theorems": [
    "C103_queries",
    "C103_iteration",
    "C103_interval_iter",
    "C103_operations"
   ],
   "note": "is_bounded is compared for non-empty intervals only (C67); intersect_in_place is left out (C46, C72, C101)."
  },
  {
   "property": "C104",
   "status": "partial",
   "theorems": [
    "C104_same_result",
    "C104_extend",
    "C104_union_minus",
    "C104_intersect_debug_partial",
    "C104_intersect_clean_partial",
    "C104_selection_partial",
    "C104_intersect_refuted"
   ],
   "note": "Refuted for intersect_in_place: the remains of {0..3, 8..9} after intersect_in_place(0..=20) contain 5 in a release build and panic in a debug build; those of {1, 3} after (1..=20) lose 1. Proved: the debug build never answers true wrongly, and the remains are exact when the tree is absent just inside both ends. For a panicking Clone see C105."
  },
  {
   "property": "C105",
   "status": "partial",
   "theorems": [
    "C105_clone_partial",
    "C105_clone_sound_partial",
    "C105_clone_refuted"
   ],
   "note": "Refuted: clone() runs while the upper part of the tree is split off, so a panic drops the values at and above the interval, or leaves half an interval on which contains panics. Proved for every crash point: no value is found that was not there, and values below the interval are answered as before or by a panic. Panics of Ord inside BTreeSet are outside the model (std leaves their effect open)."
  },
  {
   "property": "C106",
   "status": "proved",
   "theorems": [
    "C106_history",
    "C106_careful_iff",
    "C106_release_follows",
    "C106_same_tree"
   ],
   "note": ""
  },
  {
   "property": "C107",
   "status": "partial",
   "theorems": [
    "C107_ends_all_partial",
    "C107_no_panic",
    "C107_normalize_partial",
    "C107_selection",
    "C107_interval_iter",
    "C107_interval_calls_partial",
    "C107_values_partial",
    "C107_extend",
    "C107_interval_values",
    "C107_lost_refuted",
    "C107_no_panic_back",
    "C107_both_ends_partial",
    "C107_ends_sound"
   ],
   "note": "Refuted where a panic does lose data: normalize and denormalize leave Empty behind, and an iterator does not return again to the interval it was reading (C107_lost_refuted). Proved: nothing more is lost. Value iteration from both ends is proved for union-built Selections in which no single value is missing between two members (C107_both_ends_partial: with one missing, next_back is wrong without any panic, C51); for the others, soundness with debug assertions (C107_ends_sound; for programs with intersections C107_ends_all_partial, where besides members only bounds of intervals without values come out)."
  },
  {
   "property": "C108",
   "status": "partial",
   "theorems": [
    "C108_tree_sound",
    "C108_intervals_sound",
    "C108_values_sound",
    "C108_empty_refuted",
    "C108_stranger_refuted",
    "C108_twice_refuted",
    "C108_values_all_partial",
    "C108_hollow_twice_refuted"
   ],
   "note": "REFUTED without debug assertions: {0..3, 8, 10} from the back gives 10, 6, 5 (C108_stranger_refuted); on all i8 values but 124 the values 125..127 come out at the back and again at the front (C108_twice_refuted). In either build an empty interval can come out (C108_empty_refuted). Proved with debug assertions: every interval that comes out is empty or one of the Selection's, and the rest of the claim, for values on Selections built by unions or a complement of one. For every other program: what comes out is a member or a bound of an interval without values, and no member comes out twice (C108_values_all_partial); such a bound can come out twice (C108_hollow_twice_refuted)."
  },
  {
   "property": "C109",
   "status": "proved",
   "theorems": [
    "C109_groups",
    "C109_tree_back",
    "C109_intervals_back",
    "C109_values_back"
   ],
   "note": "Proved for every well-formed tree and every union-built Selection in the debug build; the release build agrees when debug reaches the end (C109_tree_back; what it does otherwise is C110). every_other is the specification."
  },
  {
   "property": "C110",
   "status": "proved",
   "theorems": [
    "C110_tree_back",
    "C110_intervals_back",
    "C110_values_back"
   ],
   "note": "Proved for every well-formed tree (the items exactly) and every union-built Selection (the sets of values of the items, and the sequence of values). with_gaps is the specification. The behaviour is a defect (C34, C51); the claim describes it."
  },
  {
   "property": "C111",
   "status": "proved",
   "theorems": [
    "C111_consistent",
    "C111_distinguishes",
    "C111_multi_line",
    "C111_int",
    "C111_selection",
    "C111_parse_error",
    "C111_layout",
    "C111_layout_int"
   ],
   "note": "Proved in full; the Debug of the iterators is not modelled."
  },
  {
   "property": "C112",
   "status": "proved",
   "theorems": [
    "C112_operations_any",
    "C112_union_iff"
   ],
   "note": "Proved in full, for every value of type Interval; when union adds a value is stated exactly (C112_union_iff)."
  },
  {
   "property": "C113",
   "status": "partial",
   "theorems": [
    "C113_tree_union_refuted",
    "C113_tree_minus_refuted",
    "C113_tree_minus_open_refuted",
    "C113_union_exact_partial",
    "C113_minus_exact_partial",
    "C113_intersect_exact_partial",
    "C113_selection_partial",
    "C113_selection_minus_refuted",
    "C113_union_iff_partial",
    "C113_minus_iff_partial",
    "C113_one_value_partial",
    "C113_union_result_partial",
    "C113_minus_result_partial",
    "C113_one_value_result_partial",
    "C113_intersect_release_partial",
    "C113_union_reads_partial",
    "C113_minus_reads_partial",
    "C113_one_value_reads_partial",
    "C113_one_value_release_partial",
    "C113_union_broken_partial",
    "C113_minus_broken_partial",
    "C113_one_value_broken_partial"
   ],
   "note": "False of the code: a tree of [2,9] with the out-of-order [5,2] added is [5,9], removing [5,2] from [0,2] adds values, removing (3,3) loses values, and a Selection of 3 and 4 changes when an Interval that contains nothing is removed. Exactly when union_in_place and minus_in_place leave the tree as it is: C113_union_iff_partial, C113_minus_iff_partial (ends out of order) and C113_one_value_partial (both ends at one value). If no interval of the tree ends at either written end, anything else breaks the tree: reading the result panics with debug assertions (C113_union_exact_partial, C113_minus_exact_partial, C113_selection_partial for Selections). In general, when the tree stays well formed and which values it holds then: C113_union_result_partial, C113_minus_result_partial (ends out of order), C113_one_value_result_partial (one value). intersect_in_place panics with debug assertions unless the tree is empty; without them C113_intersect_release_partial says when the result is well formed (ends out of order) and C113_one_value_release_partial what happens (both ends at one value). Whether a tree that is no longer well formed can be read with debug assertions, and as what: C113_union_broken_partial, C113_minus_broken_partial (ends out of order), C113_one_value_broken_partial (both ends at one value), for every tree; C113_union_reads_partial, C113_minus_reads_partial and C113_one_value_reads_partial are the simpler statements for trees in which no value alone is missing between two intervals past the upper end."
  },
  {
   "property": "C114",
   "status": "proved",
   "theorems": [
    "C114_distinguishes",
    "C114_owning",
    "C114_multi_line",
    "C114_answers",
    "C114_layout"
   ],
   "note": "Both forms; what std writes for btree_set::IntoIter is a parameter, assumed to tell its tines apart."
  },
  {
   "property": "C115",
   "status": "proved",
   "theorems": [
    "C115_one_by_one",
    "C115_minus_one",
    "C115_iter_exact",
    "C115_selection_iter",
    "C115_both_ends_exact",
    "C115_both_ends_panic",
    "C115_back_exact",
    "C115_back_plain",
    "C115_values_exact",
    "C115_values_panic",
    "C115_bounds_exact",
    "C115_union_any",
    "C115_repair",
    "C115_intersect_any",
    "C115_intersects_any",
    "C115_intersect_read",
    "C115_complement_any",
    "C115_complement_twice",
    "C115_enclose_any",
    "C115_enclose_exact",
    "C115_selection_enclose"
   ],
   "note": "Exact for every sequence of tines and both kinds of build: what interval_iter() yields, when it panics, and when contains() is true, false or panics (C115_iter_exact, C115_selection_iter). The same for any order of next and next_back (C115_both_ends_exact, C115_both_ends_panic); a debug build that reads tines in order from the front reads the same intervals reversed from the back exactly if no missing value joins two of them (C115_back_exact), and without missing values both directions always agree (C115_back_plain). For every sequence of tines and each direction, the values iter() gives, where it ends early and after which values it panics (C115_values_exact, C115_values_panic); lower_bound() and upper_bound() are the first value of each direction (C115_bounds_exact). union() of a well-formed Selection with any sequence of tines adds exactly the intervals read from it and is well formed, or panics if they cannot be read; so new().union(it) repairs it (C115_union_any, C115_repair). intersect() of any two sequences of tines: which common parts it keeps, that the result is well formed, and that it panics exactly if its walk comes to tines that cannot be read (C115_intersect_any, C115_intersect_read; the walk is the faulty one of C38); intersects() is true exactly if the walk keeps something (C115_intersects_any). complement() of any ordered sequence of tines, tine by tine, when it panics, and that doing it twice gives the same sequence (C115_complement_any, C115_complement_twice). enclose() of any ordered sequence contains every value the sequence contains (C115_enclose_any) and nothing beyond its first and last tine, and panics exactly where complement() does (C115_enclose_exact, C115_selection_enclose). For any two sequences of tines union() and minus() give what union_in_place() and minus_in_place() with each interval read from the second give in turn, and panic exactly if one cannot be read or one step panics (C115_one_by_one); C115_minus_one carries the exact domain of C37 over. An interval (x, y) of neighbours, which holds no value, is read as one of its ends."
  }
 ]
}
