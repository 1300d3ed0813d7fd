(** * Model of the state a panic leaves behind

    The in-place operations of MTineTree.v and MSelection.v again, this time with
    the value of [*self] at the moment of a panic: what a caller sees who catches
    the unwinding, or in a [Drop] implementation.  Panics of the value type's
    [Clone] and of the iterator given to [extend] are modelled; panics inside
    [BTreeSet] or of the value type's [Ord] are not. *)
From Coq Require Import List Bool.
From Verif Require Import Base MBound MRaw MNormalize MTine MBTree MTineTree MInterval MSelection.
Import ListNotations.

(** A call on [&mut self] returns or unwinds; either way it leaves a value. *)
Inductive outcome (A : Type) : Type :=
| Returned (s : A)
| Unwound (s : A).
Arguments Returned {A} s.
Arguments Unwound {A} s.

(** Evaluate [r] while [*self] is [s]. *)
Definition during {A B} (s : A) (r : res B) (k : B -> outcome A) : outcome A :=
  match r with Ok b => k b | Panic => Unwound s end.

Section Crash.
  Context {T : Type} {O : Cmp T}.
  Implicit Types s : TineTree T.

  (** src/tine_tree.rs 431-485: [union_point_interval]. *)
  Definition union_point_interval_crash (dbg : bool) (p : Tine T) s : outcome (TineTree T) :=
    let '((t0, t1, t2), s) := exterior_split_for_point_interval p s in
    during s (match t1 with Some pt => tine_union dbg pt p | None => Ok (Some p) end) (fun merged =>
    match merged with
    | None => Returned s
    | Some p =>
        let open_before := is_some_and is_lower_bound t0 in
        let closed_after := is_some_and is_upper_bound t2 in
        match open_before, closed_after with
        | true, true => Returned s
        | true, false => during s (debug_assert dbg (negb (is_lower_bound p))) (fun _ => Returned (btree_insert p s))
        | false, true => during s (debug_assert dbg (negb (is_upper_bound p))) (fun _ => Returned (btree_insert p s))
        | false, false => Returned (btree_insert p s)
        end
    end).

  (** src/tine_tree.rs 489-609: [union_proper_interval]; the assertions at 540 and 568
      come after the first insertion. *)
  Definition union_proper_interval_crash (dbg : bool) (l u : Tine T) s : outcome (TineTree T) :=
    let '((t0, t1, t2, t3), s) := exterior_split_for_proper_interval l u s in
    during s (match t1 with Some lower => tine_union dbg lower l | None => Ok (Some l) end) (fun merged_l =>
    during s (match t2 with Some upper => tine_union dbg upper u | None => Ok (Some u) end) (fun merged_u =>
    during s (debug_assert dbg (map_or_true is_lower_bound merged_l)) (fun _ =>
    during s (debug_assert dbg (map_or_true is_upper_bound merged_u)) (fun _ =>
    let open_before := is_some_and is_lower_bound t0 in
    let closed_after := is_some_and is_upper_bound t3 in
    match open_before, merged_l, merged_u, closed_after with
    | true, Some l, Some u, true =>
        let s := if is_upper_bound l then btree_insert l s else s in
        let s := if is_lower_bound u then btree_insert u s else s in
        Returned s
    | true, Some l, Some u, false =>
        let s := if is_upper_bound l then btree_insert l s else s in
        during s (debug_assert dbg (negb (is_lower_bound u))) (fun _ => Returned (btree_insert u s))
    | false, Some l, Some u, true =>
        during s (debug_assert dbg (negb (is_upper_bound l))) (fun _ =>
        let s := btree_insert l s in
        let s := if is_lower_bound u then btree_insert u s else s in
        Returned s)
    | false, Some l, Some u, false =>
        during s (debug_assert dbg (negb (is_upper_bound l))) (fun _ =>
        let s := btree_insert l s in
        during s (debug_assert dbg (negb (is_lower_bound u))) (fun _ => Returned (btree_insert u s)))
    | true, Some l, None, true => Returned (if is_point_exclude l then btree_insert l s else s)
    | false, Some l, None, true =>
        during s (debug_assert dbg (negb (is_upper_bound l))) (fun _ => Returned (btree_insert l s))
    | true, None, Some u, true => Returned (if is_point_exclude u then btree_insert u s else s)
    | true, None, Some u, false =>
        during s (debug_assert dbg (negb (is_lower_bound u))) (fun _ => Returned (btree_insert u s))
    | true, None, None, true => Returned s
    | _, _, _, _ => Unwound s
    end)))).

  (** src/tine_tree.rs 414-426: [union_in_place]. *)
  Definition tree_union_in_place_crash (dbg : bool) s (i : RawInterval T) : outcome (TineTree T) :=
    if raw_is_full i then Returned (tree_from_raw_interval Full)
    else match tine_from_raw_interval i with
         | [] => Returned s
         | [p] => union_point_interval_crash dbg p s
         | [l; u] => union_proper_interval_crash dbg l u s
         | _ => Unwound s
         end.

  (** src/tine_tree.rs 631-687: [minus_point_interval]. *)
  Definition minus_point_interval_crash (dbg : bool) (p : Tine T) s : outcome (TineTree T) :=
    let '((t0, t1, t2), s) := exterior_split_for_point_interval p s in
    during s (match t1 with Some pt => tine_minus dbg pt p | None => Ok (Some p) end) (fun merged =>
    match merged with
    | None => Returned s
    | Some p =>
        let open_before := is_some_and is_lower_bound t0 in
        let closed_after := is_some_and is_upper_bound t2 in
        match open_before, closed_after with
        | true, true => during s (tine_invert p) (fun p' => Returned (btree_insert p' s))
        | true, false => during s (debug_assert dbg (is_upper_bound p)) (fun _ => Returned (btree_insert p s))
        | false, true => during s (debug_assert dbg (is_lower_bound p)) (fun _ => Returned (btree_insert p s))
        | false, false => Returned s
        end
    end).

  (** src/tine_tree.rs 693-803: [minus_proper_interval]; the second [invert] at 731
      comes after the first insertion. *)
  Definition minus_proper_interval_crash (dbg : bool) (l u : Tine T) s : outcome (TineTree T) :=
    let '((t0, t1, t2, t3), s) := exterior_split_for_proper_interval l u s in
    during s (match t1 with Some lower => tine_minus dbg lower l | None => Ok (Some l) end) (fun merged_l =>
    during s (match t2 with Some upper => tine_minus dbg upper u | None => Ok (Some u) end) (fun merged_u =>
    let open_before := is_some_and is_lower_bound t0 in
    let closed_after := is_some_and is_upper_bound t3 in
    match open_before, merged_l, merged_u, closed_after with
    | true, Some l, Some u, true =>
        during s (as_upper l) (fun l' =>
        let s := btree_insert l' s in
        during s (as_lower u) (fun u' => Returned (btree_insert u' s)))
    | true, Some l, upper, false =>
        during s (as_upper l) (fun l' =>
        let s := btree_insert l' s in
        Returned (match upper with
                  | Some (TPoint (Include p)) => btree_insert (TPoint (Include p)) s
                  | _ => s
                  end))
    | false, lower, Some u, true =>
        during s (as_lower u) (fun u' =>
        let s := btree_insert u' s in
        Returned (match lower with
                  | Some (TPoint (Include p)) => btree_insert (TPoint (Include p)) s
                  | _ => s
                  end))
    | false, Some l, Some u, false =>
        let s := if is_point_include l then btree_insert l s else s in
        let s := if is_point_include u then btree_insert u s else s in
        Returned s
    | false, Some l, None, false => Returned (if is_point_include l then btree_insert l s else s)
    | false, None, Some u, false => Returned (if is_point_include u then btree_insert u s else s)
    | false, None, None, false => Returned s
    | _, _, _, _ => Unwound s
    end)).

  (** src/tine_tree.rs 612-627: [minus_in_place]. *)
  Definition tree_minus_in_place_crash (dbg : bool) s (i : RawInterval T) : outcome (TineTree T) :=
    if tree_is_empty s || raw_is_empty i then Returned s
    else if raw_is_full i then Returned tree_new
    else match tine_from_raw_interval i with
         | [] => Returned s
         | [p] => minus_point_interval_crash dbg p s
         | [l; u] => minus_proper_interval_crash dbg l u s
         | _ => Unwound s
         end.

  (** src/tine_tree.rs 323-411: [intersect_proper_interval], with 821-858
      ([interior_split_for_proper_interval]) in line: [self.0] is the left part
      between 835 and 856, then the tines strictly between the ends. *)
  Definition intersect_proper_interval_crash (dbg : bool) (l u : Tine T) s : outcome (TineTree T) :=
    during s (debug_assert dbg (match tine_cmp l u with Lt => true | _ => false end)) (fun _ =>
    let '(t2, s1) := btree_take l s in
    let '(t3, s2) := btree_take u s1 in
    let '(left_side, center0) := btree_split_off l s2 in
    let '(center, right_side) := btree_split_off u center0 in
    let t0 := btree_last left_side in
    let t1 := btree_first center in
    let t4 := btree_last center in
    let t5 := btree_first right_side in
    during left_side (debug_assert dbg
              (Bool.eqb (match t1 with Some _ => true | None => false end)
                        (match t4 with Some _ => true | None => false end))) (fun _ =>
    during center (match t2 with Some lower => tine_intersect dbg lower l | None => Ok (Some l) end) (fun merged_l =>
    during center (match t3 with Some upper => tine_intersect dbg upper u | None => Ok (Some u) end) (fun merged_u =>
    during center (debug_assert dbg (map_or_true is_lower_bound merged_l)) (fun _ =>
    during center (debug_assert dbg (map_or_true is_upper_bound merged_u)) (fun _ =>
    let open_before := is_some_and is_lower_bound t0 in
    let closed_after := is_some_and is_upper_bound t5 in
    let in_l := is_some_and is_upper_bound t1 in
    let in_r := is_some_and is_lower_bound t4 in
    match open_before, merged_l, in_l, in_r, merged_u, closed_after with
    | _, Some l, true, true, Some u, _
    | _, Some l, false, false, Some u, _ => Returned (btree_insert u (btree_insert l center))
    | true, Some l, true, false, _, false => Returned (btree_insert l center)
    | false, _, false, true, Some u, true => Returned (btree_insert u center)
    | false, _, false, false, _, false => Returned center
    | _, _, _, _, _, _ => Unwound center
    end)))))).

  (** src/tine_tree.rs 280-319: [intersect_in_place]. *)
  Definition tree_intersect_in_place_crash (dbg : bool) s (i : RawInterval T) : outcome (TineTree T) :=
    if tree_is_empty s || raw_is_full i then Returned s
    else if raw_is_empty i then Returned tree_new
    else match i with
         | Point pt =>
             during s (tree_contains dbg s pt) (fun c =>
             Returned (if c then tree_from_raw_interval i else tree_new))
         | _ =>
             match tine_from_raw_interval i with
             | [] => Returned tree_new
             | [TPoint (Include p)] =>
                 during s (tree_contains dbg s p) (fun c =>
                 Returned (if c then tree_from_raw_interval (Point p) else tree_new))
             | [l; u] => intersect_proper_interval_crash dbg l u s
             | _ => Unwound s
             end
         end.

  (** ** A panicking [Clone] of the value type

      The values of [*self] at the calls of [T::clone] inside the in-place
      operations, one entry for calls in a row.  A tine at infinity holds no
      value to clone.  The [BTreeSet] operations between them do not clone. *)
  Definition at_clone (o : option (Tine T)) s : list (TineTree T) :=
    match o with
    | Some t => match tine_into_inner t with Infinite => [] | _ => [s] end
    | None => []
    end.
  Definition at_raw_clone (i : RawInterval T) s : list (TineTree T) :=
    match i with Empty | Full => [] | _ => [s] end.

  (** src/tine_tree.rs 871-886: the clones at 881 and 882. *)
  Definition exterior_point_clones (tine : Tine T) s : list (TineTree T) :=
    let '(_, s1) := btree_take tine s in
    let '(left_side, right_side) := btree_split_off tine s1 in
    at_clone (btree_last left_side) left_side ++ at_clone (btree_first right_side) left_side.

  (** src/tine_tree.rs 902-929: the clones at 918 and 924. *)
  Definition exterior_proper_clones (lower upper : Tine T) s : list (TineTree T) :=
    let '(_, s1) := btree_take lower s in
    let '(_, s2) := btree_take upper s1 in
    let '(left_side, center) := btree_split_off lower s2 in
    let '(_, right_side) := btree_split_off upper center in
    at_clone (btree_last left_side) left_side ++ at_clone (btree_first right_side) left_side.

  (** src/tine_tree.rs 821-858: the clones at 840, 843, 848 and 851. *)
  Definition interior_proper_clones (dbg : bool) (lower upper : Tine T) s : list (TineTree T) :=
    match debug_assert dbg (match tine_cmp lower upper with Lt => true | _ => false end) with
    | Panic => []
    | Ok _ =>
        let '(_, s1) := btree_take lower s in
        let '(_, s2) := btree_take upper s1 in
        let '(left_side, center0) := btree_split_off lower s2 in
        let '(center, right_side) := btree_split_off upper center0 in
        at_clone (btree_last left_side) left_side ++ at_clone (btree_first center) left_side ++
        at_clone (btree_last center) left_side ++ at_clone (btree_first right_side) left_side
    end.

  (** src/tine_tree.rs 414-426: [union_in_place]; the clone at 421. *)
  Definition tree_union_in_place_clones s (i : RawInterval T) : list (TineTree T) :=
    if raw_is_full i then []
    else at_raw_clone i s ++
         match tine_from_raw_interval i with
         | [p] => exterior_point_clones p s
         | [l; u] => exterior_proper_clones l u s
         | _ => []
         end.

  (** src/tine_tree.rs 612-627: [minus_in_place]; the clone at 622. *)
  Definition tree_minus_in_place_clones s (i : RawInterval T) : list (TineTree T) :=
    if tree_is_empty s || raw_is_empty i then []
    else if raw_is_full i then []
    else at_raw_clone i s ++
         match tine_from_raw_interval i with
         | [p] => exterior_point_clones p s
         | [l; u] => exterior_proper_clones l u s
         | _ => []
         end.

  (** src/tine_tree.rs 280-319: [intersect_in_place]; the clones in [contains] at 295
      and 308, and those at 296 and 303. *)
  Definition tree_intersect_in_place_clones (dbg : bool) s (i : RawInterval T) : list (TineTree T) :=
    if tree_is_empty s || raw_is_full i then []
    else if raw_is_empty i then []
    else at_raw_clone i s ++
         match tine_from_raw_interval i with
         | [l; u] => interior_proper_clones dbg l u s
         | _ => []
         end.

  Context {F : FiniteOps T}.

  (** src/selection.rs 761-763, 804-806, 847-849. *)
  Definition sel_intersect_in_place_crash (dbg : bool) (s : Selection T) (i : Interval T) : outcome (Selection T) :=
    tree_intersect_in_place_crash dbg s (denormalized (interval_raw i)).
  Definition sel_union_in_place_crash (dbg : bool) (s : Selection T) (i : Interval T) : outcome (Selection T) :=
    tree_union_in_place_crash dbg s (denormalized (interval_raw i)).
  Definition sel_minus_in_place_crash (dbg : bool) (s : Selection T) (i : Interval T) : outcome (Selection T) :=
    tree_minus_in_place_crash dbg s (denormalized (interval_raw i)).

  (** What an iterator given to [extend] does next: it hands out an interval or
      panics.  The end of the list is the end of the iterator. *)
  Inductive feed := Item (i : Interval T) | Crash.

  (** src/selection.rs 909-920: [extend]. *)
  Fixpoint sel_extend_crash (dbg : bool) (s : Selection T) (l : list feed) : outcome (Selection T) :=
    match l with
    | [] => Returned s
    | Crash :: _ => Unwound s
    | Item i :: l' =>
        match sel_union_in_place_crash dbg s i with
        | Returned s' => sel_extend_crash dbg s' l'
        | Unwound s' => Unwound s'
        end
    end.
End Crash.
Arguments feed T : clear implicits.
