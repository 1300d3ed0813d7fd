(** * Model of src/selection.rs *)
From Coq Require Import List Bool.
From Verif Require Import Base MBound MRaw MNormalize MInterval MTine MBTree MTineTree.
Import ListNotations.

(** src/selection.rs 42: [struct Selection<T>(TineTree<T>)]; its derived
    [PartialEq] (36) is that of the tree, [tree_eqb]. *)
Definition Selection (T : Type) : Type := TineTree T.

Section Selection.
  Context {T : Type} {O : Cmp T} {F : FiniteOps T}.
  Implicit Types s : Selection T.

  (** src/selection.rs 81-83: [new]; 88-90: [empty]; 44-52: [Default]. *)
  Definition sel_new : Selection T := tree_new.
  (** src/selection.rs 922-931: [From<Interval<T>>]. *)
  Definition sel_from (i : Interval T) : Selection T :=
    tree_from_raw_interval (denormalized (interval_raw i)).
  (** src/selection.rs 110-112: [full]. *)
  Definition sel_full : Selection T := sel_from interval_full.

  (** src/selection.rs 804-806: [union_in_place]. *)
  Definition sel_union_in_place (dbg : bool) s (i : Interval T) : res (Selection T) :=
    tree_union_in_place dbg s (denormalized (interval_raw i)).
  (** src/selection.rs 761-763: [intersect_in_place]. *)
  Definition sel_intersect_in_place (dbg : bool) s (i : Interval T) : res (Selection T) :=
    tree_intersect_in_place dbg s (denormalized (interval_raw i)).
  (** src/selection.rs 847-849: [minus_in_place]. *)
  Definition sel_minus_in_place (dbg : bool) s (i : Interval T) : res (Selection T) :=
    tree_minus_in_place dbg s (denormalized (interval_raw i)).

  (** src/selection.rs 914-919: [Extend<Interval<T>>]. *)
  Fixpoint sel_extend (dbg : bool) s (l : list (Interval T)) : res (Selection T) :=
    match l with
    | [] => Ok s
    | i :: l' =>
        do s' <- tree_union_in_place dbg s (denormalized (interval_raw i));
        sel_extend dbg s' l'
    end.
  (** src/selection.rs 938-945: [FromIterator<Interval<T>>]. *)
  Definition sel_from_intervals (dbg : bool) (l : list (Interval T)) : res (Selection T) :=
    sel_extend dbg sel_new l.
  (** src/selection.rs 953-960: [FromIterator<T>]. *)
  Definition sel_from_points (dbg : bool) (l : list T) : res (Selection T) :=
    sel_extend dbg sel_new (map interval_point l).

  (** src/selection.rs 554-556: [complement]. *)
  Definition sel_complement (dbg : bool) s : res (Selection T) := tree_complement dbg s.
  (** src/selection.rs 597-599: [intersect]. *)
  Definition sel_intersect (dbg : bool) s (o : Selection T) : res (Selection T) :=
    tree_intersect dbg s o.
  (** src/selection.rs 640-642: [union]. *)
  Definition sel_union (dbg : bool) s (o : Selection T) : res (Selection T) :=
    tree_union dbg s o.
  (** src/selection.rs 664-666: [minus]. *)
  Definition sel_minus (dbg : bool) s (o : Selection T) : res (Selection T) :=
    tree_minus dbg s o.
  (** src/selection.rs 689-691: [enclose]. *)
  Definition sel_enclose (dbg : bool) s : res (Interval T) :=
    do i <- tree_enclose dbg s; Ok (mkInterval (normalized i)).
  (** src/selection.rs 714-716: [closure]. *)
  Definition sel_closure (dbg : bool) s : res (Interval T) :=
    do i <- tree_closure dbg s; Ok (mkInterval (normalized i)).

  (** src/selection.rs 472-474: [contains]. *)
  Definition sel_contains (dbg : bool) s (x : T) : res bool := tree_contains dbg s x.
  (** src/selection.rs 501-504: [intersects]. *)
  Definition sel_intersects (dbg : bool) s (o : Selection T) : res bool :=
    do r <- tree_intersect dbg s o; Ok (negb (tree_is_empty r)).
  (** src/selection.rs 320-322: [is_empty]. *)
  Definition sel_is_empty s : bool := tree_is_empty s.
  (** src/selection.rs 345-347: [is_full]. *)
  Definition sel_is_full s : bool := tree_is_full s.

  (** src/selection.rs 857-859: [interval_iter]; 863-865: [into_interval_iter].
      [IntervalIter] (1010) and [IntoIntervalIter] (968) wrap the tree iterator. *)
  Definition sel_interval_iter s : Iter T := tree_interval_iter s.

  (** src/selection.rs 1020-1025 and 977-982: [next] of the interval iterators. *)
  Definition sel_interval_next (dbg : bool) (it : Iter T) : res (option (Interval T) * Iter T) :=
    do (x, it') <- iter_next dbg it;
    Ok (option_map (fun r => interval_from_raw (normalized r)) x, it').
  (** src/selection.rs 1034-1039 and 990-995: [next_back]. *)
  Definition sel_interval_next_back (dbg : bool) (it : Iter T)
    : res (option (Interval T) * Iter T) :=
    do (x, it') <- iter_next_back dbg it;
    Ok (option_map (fun r => interval_from_raw (normalized r)) x, it').

  (** src/selection.rs 158-160: [lower_bound]. *)
  Definition sel_lower_bound (dbg : bool) s : res (option (Bound T)) :=
    do (x, _) <- sel_interval_next dbg (sel_interval_iter s);
    Ok (match x with Some i => interval_lower_bound i | None => None end).
  (** src/selection.rs 204-206: [upper_bound]. *)
  Definition sel_upper_bound (dbg : bool) s : res (option (Bound T)) :=
    do (x, _) <- sel_interval_next_back dbg (sel_interval_iter s);
    Ok (match x with Some i => interval_upper_bound i | None => None end).
  (** src/selection.rs 247-249: [infimum]. *)
  Definition sel_infimum s : option T :=
    match tree_lower_bound s with Some b => bound_as_ref b | None => None end.
  (** src/selection.rs 291-293: [supremum]. *)
  Definition sel_supremum s : option T :=
    match tree_upper_bound s with Some b => bound_as_ref b | None => None end.

  (** src/selection.rs 370-372: [is_bounded]. *)
  Definition sel_is_bounded (dbg : bool) s : res bool :=
    do l <- sel_lower_bound dbg s;
    match l with
    | Some _ => Ok true (* short-circuit || *)
    | None => do u <- sel_upper_bound dbg s;
              Ok (match u with Some _ => true | None => false end)
    end.
  (** src/selection.rs 395-397: [is_left_bounded]. *)
  Definition sel_is_left_bounded (dbg : bool) s : res bool :=
    do l <- sel_lower_bound dbg s;
    Ok (negb (match l with Some Infinite => true | _ => false end)).
  (** src/selection.rs 421-423: [is_right_bounded]. *)
  Definition sel_is_right_bounded (dbg : bool) s : res bool :=
    do u <- sel_upper_bound dbg s;
    Ok (negb (match u with Some Infinite => true | _ => false end)).
  (** src/selection.rs 446-450: [is_half_bounded]. *)
  Definition sel_is_half_bounded (dbg : bool) s : res bool :=
    do l <- sel_is_left_bounded dbg s;
    do r <- sel_is_right_bounded dbg s;
    Ok ((l && negb r) || (negb l && r)).

  (** src/selection.rs 1116-1123 ([Iter]) and 1054-1061 ([IntoIter]). *)
  Record SelIter := { si_intervals : Iter T; si_current : Interval T }.

  (** src/selection.rs 873-878, 887-892, 901-906: [iter], [into_iter]. *)
  Definition sel_iter s : SelIter :=
    {| si_intervals := tree_interval_iter s; si_current := interval_empty |}.

  (** src/selection.rs 1130-1145 and 1068-1083: [next]. *)
  Definition sel_next (dbg : bool) (it : SelIter) : res (option T * SelIter) :=
    do (x, cur) <- interval_next (si_current it);
    match x with
    | Some _ => Ok (x, {| si_intervals := si_intervals it; si_current := cur |})
    | None =>
        do (y, its) <- iter_next dbg (si_intervals it);
        match y with
        | None => Ok (None, {| si_intervals := its; si_current := cur |})
        | Some r =>
            do (x', cur') <- interval_next (interval_from_raw (normalized r));
            Ok (x', {| si_intervals := its; si_current := cur' |})
        end
    end.

  (** src/selection.rs 1151-1166 and 1089-1104: [next_back]. *)
  Definition sel_next_back (dbg : bool) (it : SelIter) : res (option T * SelIter) :=
    do (x, cur) <- interval_next_back (si_current it);
    match x with
    | Some _ => Ok (x, {| si_intervals := si_intervals it; si_current := cur |})
    | None =>
        do (y, its) <- iter_next_back dbg (si_intervals it);
        match y with
        | None => Ok (None, {| si_intervals := its; si_current := cur |})
        | Some r =>
            do (x', cur') <- interval_next_back (interval_from_raw (normalized r));
            Ok (x', {| si_intervals := its; si_current := cur' |})
        end
    end.
End Selection.
Arguments SelIter T : clear implicits.
