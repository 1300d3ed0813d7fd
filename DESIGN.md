# Formal model of normalize-interval-rs in Coq 8.16.1

## 1. What is modelled

| /repo file | model file | status |
|---|---|---|
| src/bound.rs | MBound.v, MBoundP.v | all of Bound's combinators; MBoundP.v for T: PartialOrd |
| src/raw_interval.rs | MRaw.v | all of RawInterval except Display/FromStr |
| src/raw_interval.rs 440-512 | MParse.v | Display, FromStr, IntervalParseError |
| src/normalize.rs | MNormalize.v, Ints.v | Finite, normalize, denormalize, the 12 integer impls |
| src/interval.rs | MInterval.v | all public functions, conversions and Iter |
| src/tine.rs | MTine.v | all |
| src/tine_tree.rs | MTineTree.v (+ MBTree.v for BTreeSet) | all |
| src/selection.rs | MSelection.v | all public functions, conversions, 4 iterators |
| src/normalize.rs, src/interval.rs, src/selection.rs (calls of `pred`, `succ`) | MFault.v | their panics, and the receiver or iterator left behind |
| src/tine_tree.rs, src/selection.rs (`&mut self` calls) | MCrash.v | `*self` at every panic of union, minus, intersect in place and of extend, and at every clone() |
| `derive(Serialize, Deserialize)` in six files | MSerde.v | round trips in the serde data model |
| `derive(Hash)` in six files | MHash.v | what is written to the hasher |
| `derive(Debug)` in six files | MDebug.v, MDebugIter.v | the texts of `{:?}` and `{:#?}` |

Not modelled: Clone's result (every value is immutable here; for its panics see MCrash.v), the
generated error messages of serde and of FromStr of the value type, memory
behaviour and running time, threads (there is no shared state in the crate),
the `few` crate (taken to iterate its 0/1/2 items in order), the wire format
behind serde.

Read with these limits:

* `RawInterval`'s variants are public, so `Closed(5, 2)` can be written. Theorems
  about raw intervals and trees say `raw_wf` where they need the bounds in
  order; everything the crate's constructors make is `raw_wf` (proved).
* The laws in `Class Ord` say that `cmp` is Equal only for identical values. For
  types where `==` is coarser than identity (a key is compared), C96 carries
  every operation, and the set semantics, over from the type of keys.
* `BTreeSet` is modelled (MBTree.v) by its documented meaning, not by B-tree nodes.
* Integer text and `str` primitives (split, trim of one char, parse) are modelled in
  MParse.v and Ints.v by their documented meaning.
* In MTine.v `tine_cmp` is total, where the code panics on `Point(Infinite)`. No
  operation builds such a tine. A deserialiser can (C89), there the model
  panics.

## 2. Modelling conventions

* A Rust function becomes a total Gallina function of the same name.
* What the code calls of `T: Ord` is `Class Cmp` (the function `cmp`), of `T: Finite`
  is `Class FiniteOps` (MINIMUM, MAXIMUM, pred, succ). The model files (M*.v) and the
  specification files use only these. The laws are in `Class Ord` (Eq is
  identity, antisymmetric, transitive) and `Class Finite`, which theorems assume.
  Laws are class fields, so every theorem holds for all instances; instances
  are given for the 12 integer types, Z and Qc (dense).
* A panic (`unwrap`, `unreachable!`, `debug_assert!`) is the value `Panic` of
  `res A := Ok a | Panic`. `debug_assert!` panics only when the model's `dbg`
  parameter is true; theorems quantify over `dbg`.
* `&mut self` becomes old state -> new state.
* `BTreeSet<Tine>` is a list sorted by Tine::cmp, with the documented semantics
  of insert (keeps the present element on Equal), take, split_off, append,
  range queries, collect, iterators popping at either end.
* Iterators are records with an explicit state; `next` and `next_back` are
  functions state -> res (option item * state). Full iteration is the relation
  "n calls give these n items then None".

## 3. How properties are specified

`Spec.v` states the specification side: point sets as predicates `T -> Prop`,
and nothing about tines. Theorems about trees and Selections are stated
through `contains`, which is a public function of the API, through the results
of public iterators and queries, and through ==.

Proof device (not visible in statements where avoidable): a tree is read as a
function on positions -inf, just-below x, at x, just-above x, +inf. Each tree
operation is shown to act pointwise on positions; a well-formed tree is the
unique representation of its position function.

## 4. Per-property plan

* C01-C10, C14: case analysis on shapes; order reasoning by an automation
  tactic; lists by induction.
* C11-C13: strings are lists of code points; Display and the splitting parser
  are modelled; round trip by induction on digit lists; leniency shown by witness.
* C15-C18: case analysis using the Finite laws; machine integers are a sigma
  type over Z with a boolean range proof.
* C19-C26: induction on Interval expressions; iteration by induction on the
  number of points left.
* C27-C28: case analysis.
* C29-C42: position semantics, invariants of the tree, induction on the tine list.
* C43-C56: from the tree theorems via normalization; induction on programs.
* C57: consequence of "never panics" for each operation under both dbg values.
* C58-C61 (raw intervals): case analysis; exactness of infimum, is_empty,
  is_full, closure and merging on dense orders without end points, witnesses
  over Z and i8 against the general claim.
* C62-C66 (intervals, bounds): from the shape invariant of reachable intervals;
  the lattice laws through extensionality of position functions.
* C67-C71 (Selections): from the tree theorems; equality laws through
  uniqueness of the representation of a position function.
* C72-C86 (exact domains): where a property of the first list is refuted by the
  code, an if-and-only-if saying on which inputs it holds, or the exact result
  the code returns (Spec_Domain.v, Properties_Domain.v, Properties_Domain2.v).

* C87 (end of iteration): an invariant of the iterator states and a set of
  finished states; a witness against the Selection iterator; for a None from
  the back an if-and-only-if, with a schedule built around the last pinhole of
  the tree for the direction that fails (Properties_Fused2.v).
* C88-C89 (serde): case analysis on the data model; insertion sort of tines for
  the order of items; witnesses against the invariants.
* C90-C91 (shapes no constructor makes): case analysis on all variants; position
  reasoning without the order assumption; witnesses.
* C92 (parse errors): inversion of the parser's cases against inductive
  descriptions of faulty bounds; induction on the digits for the integers.
* C93 (histories): induction over the list of calls with the invariant that no
  interval of the tree and no gap between them is without values; each call is
  shown to keep it and to have its set effect (`Spec_History.v`). Iteration from
  both ends as for C51, in `Properties_Complement.v`, which also has the forms of
  C34, C44, C46, C50 and C51 for complements of union-built Selections: their
  trees have no pinholes. For C45 (`Properties_Complement2.v`) pieces of such a
  tree meet others only in a value.
* C94 (PartialOrd): case analysis on bounds and comparison; floats from the
  standard library's SpecFloat (no axioms) as an instance.
* C95 (outer bounds): the first and last piece of the tree carry its least and
  greatest position, which fixes every bound query; `den_ext` for fullness.
* C96 (keys): every model function is shown to commute with the map that replaces
  values by keys, function by function; no law is needed.
* C97 (hashing): the writes of each type as a list of tokens; prefix-freeness by
  case analysis, induction on the tines, and C48 for Selections.
* C98 (number of intervals): each tine gets a weight, the number of interval ends
  it stands for; twice the number of intervals yielded is the total weight, and every
  operation is shown to be subadditive in it.
* Exact forms of refuted properties (`Properties_Exact.v`, `Properties_Exact2.v`, `Properties_Exact3.v`, `Properties_UnionAll.v`):
  case analysis on the shapes intervals of the API can have; the pieces a tree
  yields have a value or are an open pair of neighbours; for `union_all` the
  notion of a position between two intervals, kept by merging.
* C99 (mirror symmetry): `Spec_Mirror.v` defines exchanging the ends of an
  interval, tree or program along a map that reverses the order. Interval
  operations by cases. In-place tree operations are shown equal on any ascending
  tree, well-formed or not, by splitting it at the positions of the interval's
  ends; `complement` by its explicit form; queries through the set a tree denotes;
  programs and histories by induction. `Reverse` and integer `!` are shown to be
  such maps.
* C100 (the same for `intersect` and `minus` of two Selections): refuted by
  computed cases; proved for `minus` of at most one interval, and of a tree
  none of whose single points is an excluded end in the other, by the
  description of the result as a set (`Properties_Mirror2.v`).
* C101 (panics of `intersect_in_place`; complements in `Properties_Complement3.v`): `Spec_Panic.v` states the condition with
  the vocabulary of C41 and C72. The tree is split at the two ends of the
  interval as for C41; what the code does with the two ends is then a finite
  table. For a Selection clear of both ends the result is computed exactly.
* C102 (no invented values): `Spec_Values.v` lists the values written in a bound,
  interval or tree. The arguments are lifted to the type of values they mention,
  and C96 carries the operation over.
* C103 (one interval, two layers): `Properties_Single.v`.  The tree iterator over
  a one-interval Selection hands out one interval and is then exhausted; from
  there a bisimulation pairs the states of the two value iterators.  The set
  operations follow from C20, C43, C45, C48 and C76.
* C104 (crash points): `MCrash.v` writes the in-place operations again, with the
  value of `*self` at each place that can panic; `C104_same_result` proves that
  they return and panic exactly as the model without crash states.  The remains
  of `intersect_in_place` are the tines strictly between the ends
  (`PCrash.intersect_unwound`), and `contains` is analysed on such trees, which
  need not be well formed.
* C105 (panicking Clone): `MCrash.v` lists the values of `*self` at the calls of
  `T::clone`. Each is the old tree or a prefix of it (`PCrash.clone_state`);
  `contains` on a prefix is analysed as for C104.
* C106 (histories on one tree): `Spec_TreeHistory.v` lists the calls, their
  effect on sets and the caller's duty; induction over the history with the
  exact domains of C37, C41 and C73. The missing converse for `minus` of trees
  (what an obstacle leaves is not repaired by later intervals) is
  `PTreeMinus.v`, stated as `C37_minus_tree_domain`.
* C107 (panicking `pred` and `succ`): `MFault.v` writes the functions that call
  them again, with `pred` and `succ` as functions that may panic and with what
  each `&mut` call leaves. `Spec_Fault.v` has the schedules of calls with caught
  panics. Invariants of the iterators as in C49 and C23, one step lemma each;
  from both ends (`Properties_Fault2.v`) those of C51 and C108.
* C108 (nothing strange from both ends): debug build by an invariant: the
  iterator holds a stretch of the tines and perhaps one pinhole from just before
  or from after it; each call that returns an interval uses up the tine at its
  upper end. False without debug assertions, by concrete runs. For programs with
  intersections (`Properties_Ends3.v`) the same invariant, with a second case for
  a current interval without values.
* C109 (the back alone): `every_other` in `Properties_Ends2.v` is the
  specification, a recursion over the list of intervals. Strong induction on the
  tines left: after a pinhole the next pinhole plays the part of an upper end.
* C110 (the back alone, release build): `with_gaps` in `Properties_Ends4.v` is
  the specification, a recursion with two modes. Induction on the tines left,
  with one statement for each mode; the second one pretends that the tines end
  with an upper bound that has been used already.
* C111 (`{:?}`, `{:#?}`): the texts are those the derives generate, over an arbitrary
  text of `T`. Proved as for C97, by showing that the texts are prefix-free if
  the text of `T` is delimited by a comma or a closing parenthesis; the
  integers' texts are, by the lemmas for C11-C13. Spec_Debug.v gives the layout
  of both forms once for all terms, the second one as a list of lines;
  C111_layout equates the texts with it.
* C112 (Intervals of any shape): C91's theorems, which assume no order of the
  bounds, carried through normalization, which keeps the values of every shape.
* C113 (adding or removing an interval without values): false of the code;
  witnesses on trees and on a Selection of i8.  What happens is proved for trees
  with no interval ending at the two written ends: `exterior_split` finds the
  neighbours of the lower end and restores the tree, so the state at the lower
  end decides; the broken results are shown unreadable with the `reads`
  automaton of C89.  When the tree stays as it is, is decided in general by the states
  around the two ends and whether a tine lies between (case analysis); so are when the tree
  stays well formed and what it holds then, with `intersect_in_place` of a release build,
  and whether a broken tree still reads (the automaton of C89, across the junctions).
* C114 (`{:?}` and `{:#?}` of the iterators): as C111, each text is shown prefix-free; what std writes
  for the owning set iterator is a parameter. Spec_Debug2.v gives the layout; C114_layout equates the texts with it.
* C115 (any sequence of tines):
  Spec_Take.v says what one `next()` takes off it; the loops of `collect` and
  `contains` are related to it by induction on the fuel (C115_iter_exact).
  Spec_Take2.v does the same for calls from both ends; the comparison of the two
  directions cuts the list into pieces of one or two tines and looks at the last
  hole that joins two intervals (Properties_Serde4.v).  Spec_Take3.v adds the values
  an interval is read as; the proof is by induction on the intervals taken and, inside
  one, on the values still to come (Properties_Serde5.v).  Adding such a sequence to
  a well-formed tree reuses C29 for every interval taken (Properties_Serde6.v).  Spec_Take4.v says how `intersect`
  walks two such sequences; the two loops are related to it by induction on their fuel (Properties_Serde7.v).  Spec_Take5.v
  gives the complement of an ordered sequence tine by tine; the proof reuses the loop lemmas of C31 (Properties_Serde8.v).  `enclose` covers it because
  both ends of each interval taken are tines of the sequence (Properties_Serde9.v).  `union` and `minus` are the in-place
  operations applied in turn, by induction on the fuel of the fold (Spec_Take6.v, Properties_Serde10.v).

Where reading the code shows a property to be false, the deliverable is: a
`_refuted` theorem exhibiting a witness computed by the model, a `_partial`
theorem giving the domain on which it holds, and, when possible, an
if-and-only-if. Expected refutations: C03 (discrete T), C08 (overlap), C09, C13,
C16, C17, C21, C22, C24, C25, C26, C28 (minus, intersect tables), C34, C36,
C38, C40, C44-C47, C49, C51, C53, C55, C56, C58-C60, C62, C63, C67, C71.

## 5. Trusted base

* Coq 8.16.1's kernel (and its `vm_compute` conversion, used in witnesses).
* The reading of Rust as Gallina in the M*.v files, Base.v and Ints.v. Conformance.v
  and Conformance_Docs.v replay the unit tests and documentation examples of
  /repo in the model; they are tests of this reading, not proofs of properties.
* std's BTreeSet, str and integer parsing, and serde's derives, behaving as
  described above.

`Print Assumptions` follows each property theorem and prints "Closed under the
global context" for every one: no axiom is used, neither ours nor the standard
library's. The standard library modules that are loaded declare the abstract
constants `Coq.ssr.ssrunder.Under_rel.*`; no theorem depends on them. There is no
Admitted, no Axiom or Parameter, no functor or module type in the sources.

## 6. Files

* Base, Ints, M*.v: the model. Spec*.v: the specification side.
* OrdFacts, Pos, P[A-Z]*.v without `Properties_`: proofs.
* Properties_*.v: the theorems named C<nn>_..., each with an example meeting its
  hypotheses. MANIFEST.json is generated from their names by tools/manifest.py.
* seeded/LOG.jsonl: wrong programs tried and the theorems that rejected them
  (tools/mutlog.py writes most of it from runs in scratch copies).
