(** * Model of src/tine_tree.rs

    [TineTree<T>] is its [BTreeSet<Tine<T>>], i.e. a list (MBTree.v).  Methods
    taking [&mut self] return the new tree.  [dbg] says whether debug
    assertions are compiled in. *)
From Coq Require Import List Bool.
From Verif Require Import Base MBound MRaw MTine MBTree.
Import ListNotations.

Section TineTree.
  Context {T : Type} {O : Cmp T}.

  (** src/tine_tree.rs 52: [struct TineTree<T>(BTreeSet<Tine<T>>)]. *)
  Definition TineTree := list (Tine T).
  Implicit Types s : TineTree.

  (** src/tine_tree.rs 61-63: [new]; 946-950: [Default]. *)
  Definition tree_new : TineTree := [].

  (** src/tine_tree.rs 67-69: [from_raw_interval]; 955-959: [From<RawInterval>]. *)
  Definition tree_from_raw_interval (i : RawInterval T) : TineTree :=
    btree_collect (tine_from_raw_interval i).

  (** src/tine_tree.rs 78-80: [lower_bound]. *)
  Definition tree_lower_bound s : option (Bound T) :=
    option_map tine_into_inner (btree_first s).

  (** src/tine_tree.rs 85-87: [upper_bound]. *)
  Definition tree_upper_bound s : option (Bound T) :=
    option_map tine_into_inner (btree_last s).

  (** src/tine_tree.rs 96-98: [is_empty]. *)
  Definition tree_is_empty s : bool := match s with [] => true | _ => false end.

  (** src/tine_tree.rs 102-106: [is_full]. *)
  Definition tree_is_full s : bool :=
    match s with
    | [a; b] => tine_eqb a (TLower Infinite) && tine_eqb b (TUpper Infinite)
    | _ => false
    end.

  (** ** Interval iterators *)

  (** src/tine_tree.rs 1096-1104 ([Iter]) and 1010-1017 ([IntoIter]): the set
      iterator as the list of tines still to be yielded, and the two saved
      tines.  The two types have the same code (1022-1052 and 1111-1142;
      1058-1088 and 1148-1178), hence one model. *)
  Record Iter := {
    tine_iter : list (Tine T);
    saved_lower : option (Tine T);
    saved_upper : option (Tine T)
  }.

  (** src/tine_tree.rs 937-943: [interval_iter]; 995-1001: [into_iter]. *)
  Definition tree_interval_iter s : Iter :=
    {| tine_iter := s; saved_lower := None; saved_upper := None |}.

  (** src/tine_tree.rs 1111-1142: [next] (and 1022-1052).  [saved_lower.take()]
      first, then the set iterator. *)
  Definition iter_next (dbg : bool) (it : Iter) : res (option (RawInterval T) * Iter) :=
    let '(first, ts) :=
      match saved_lower it with
      | Some t => (Some t, tine_iter it)
      | None => (btree_first (tine_iter it), btree_rest_front (tine_iter it))
      end in
    match first with
    | None => Ok (None, {| tine_iter := ts; saved_lower := None; saved_upper := saved_upper it |})
    | Some (TPoint (Include p)) =>
        Ok (Some (Point p), {| tine_iter := ts; saved_lower := None; saved_upper := saved_upper it |})
    | Some lower =>
        do _ <- debug_assert dbg (is_lower_bound lower);
        let '(second, ts', su') :=
          match btree_first ts with
          | Some t => (Some t, btree_rest_front ts, saved_upper it)
          | None => (saved_upper it, ts, None)
          end in
        match second with
        | None => Panic (* expect("interval is not partial") *)
        | Some upper =>
            let sl' := if is_point_exclude upper then Some upper else None in
            do _ <- debug_assert dbg (is_upper_bound upper);
            Ok (Some (raw_new (tine_into_inner lower) (tine_into_inner upper)),
                {| tine_iter := ts'; saved_lower := sl'; saved_upper := su' |})
        end
    end.

  (** src/tine_tree.rs 1148-1178: [next_back] (and 1058-1088).  Note line 1167
      (1077): the tine is saved in [saved_lower]. *)
  Definition iter_next_back (dbg : bool) (it : Iter) : res (option (RawInterval T) * Iter) :=
    let '(first, ts) :=
      match saved_upper it with
      | Some t => (Some t, tine_iter it)
      | None => (btree_last (tine_iter it), btree_rest_back (tine_iter it))
      end in
    match first with
    | None => Ok (None, {| tine_iter := ts; saved_lower := saved_lower it; saved_upper := None |})
    | Some (TPoint (Include p)) =>
        Ok (Some (Point p), {| tine_iter := ts; saved_lower := saved_lower it; saved_upper := None |})
    | Some upper =>
        do _ <- debug_assert dbg (is_upper_bound upper);
        let '(second, ts', sl') :=
          match btree_last ts with
          | Some t => (Some t, btree_rest_back ts, saved_lower it)
          | None => (saved_lower it, ts, None)
          end in
        match second with
        | None => Panic (* expect("interval is not partial") *)
        | Some lower =>
            let sl'' := if is_point_exclude lower then Some lower else sl' in
            do _ <- debug_assert dbg (is_lower_bound lower);
            Ok (Some (raw_new (tine_into_inner lower) (tine_into_inner upper)),
                {| tine_iter := ts'; saved_lower := sl''; saved_upper := None |})
        end
    end.

  (** Not in the code.  A bound on the number of items an iterator can still yield: the number
      of tines it holds.  Used as recursion fuel for the [for] loops; the
      [Panic] at fuel 0 is never reached ([iter_next_size] in the proofs). *)
  Definition iter_size (it : Iter) : nat :=
    length (tine_iter it) +
    (match saved_lower it with Some _ => 1 | None => 0 end) +
    (match saved_upper it with Some _ => 1 | None => 0 end).

  (** [for interval in it { acc = body(acc, interval) }], src/tine_tree.rs 211-213,
      222-224. *)
  Fixpoint iter_fold_fuel {A} (fuel : nat) (dbg : bool) (f : A -> RawInterval T -> res A)
           (it : Iter) (acc : A) : res A :=
    match fuel with
    | 0 => Panic
    | S fuel =>
        do (x, it') <- iter_next dbg it;
        match x with
        | None => Ok acc
        | Some i => do acc' <- f acc i; iter_fold_fuel fuel dbg f it' acc'
        end
    end.
  (** The loop with enough fuel. *)
  Definition iter_fold {A} (dbg : bool) (f : A -> RawInterval T -> res A) (it : Iter) (acc : A)
    : res A := iter_fold_fuel (S (iter_size it)) dbg f it acc.

  (** src/tine_tree.rs 110-116: [contains]: the loop with its early [return]. *)
  Fixpoint contains_fuel (fuel : nat) (dbg : bool) (it : Iter) (point : T) : res bool :=
    match fuel with
    | 0 => Panic
    | S fuel =>
        do (x, it') <- iter_next dbg it;
        match x with
        | None => Ok false
        | Some i => if raw_contains i point then Ok true else contains_fuel fuel dbg it' point
        end
    end.
  Definition tree_contains (dbg : bool) s (point : T) : res bool :=
    contains_fuel (S (iter_size (tree_interval_iter s))) dbg (tree_interval_iter s) point.

  (** Collecting all intervals of an iterator ([it.collect::<Vec<_>>()]), as
      callers of [interval_iter] do. *)
  Definition iter_collect (dbg : bool) (it : Iter) : res (list (RawInterval T)) :=
    do l <- iter_fold dbg (fun acc i => Ok (i :: acc)) it [];
    Ok (rev l).

  (** ** Set operations *)

  (** [Option<Tine>::map_or(true, f)] and [is_some_and(f)], src/tine_tree.rs 343, 346,
      353-363, 454, 457, 509-522, 654, 657, 714, 717. *)
  Definition map_or_true (f : Tine T -> bool) (o : option (Tine T)) : bool :=
    match o with Some t => f t | None => true end.
  Definition is_some_and (f : Tine T -> bool) (o : option (Tine T)) : bool :=
    match o with Some t => f t | None => false end.

  (** src/tine_tree.rs 172-174: the last loop of [complement]. *)
  Fixpoint complement_rest (l : list (Tine T)) s : res TineTree :=
    match l with
    | [] => Ok s
    | t :: l' => do t' <- tine_invert t; complement_rest l' (btree_insert t' s)
    end.

  (** src/tine_tree.rs 126-177: [complement]. *)
  Definition tree_complement (dbg : bool) s : res TineTree :=
    match s with
    | [] => Ok (tree_from_raw_interval Full)
    | [t] =>
        do tine <- tine_invert t;
        do _ <- debug_assert dbg (is_point_exclude tine);
        Ok (btree_insert (TUpper Infinite)
             (btree_insert tine (btree_insert (TLower Infinite) tree_new)))
    | t :: it =>
        do c1 <- match t with
                 | TLower Infinite => Ok tree_new
                 | _ => do t' <- tine_invert t;
                        Ok (btree_insert t' (btree_insert (TLower Infinite) tree_new))
                 end;
        do c2 <- match btree_last it with
                 | Some (TUpper Infinite) => Ok c1
                 | Some t => do t' <- tine_invert t;
                             Ok (btree_insert t' (btree_insert (TUpper Infinite) c1))
                 | None => Panic
                 end;
        complement_rest (btree_rest_back it) c2
    end.

  (** src/tine_tree.rs 871-886: [exterior_split_for_point_interval]; returns
      the array and the new set. *)
  Definition exterior_split_for_point_interval (tine : Tine T) s
    : (option (Tine T) * option (Tine T) * option (Tine T)) * TineTree :=
    let '(r1, s1) := btree_take tine s in
    let '(left_side, right_side) := btree_split_off tine s1 in
    ((btree_last left_side, r1, btree_first right_side), btree_append left_side right_side).

  (** src/tine_tree.rs 902-929: [exterior_split_for_proper_interval]. *)
  Definition exterior_split_for_proper_interval (lower upper : Tine T) s
    : (option (Tine T) * option (Tine T) * option (Tine T) * option (Tine T)) * TineTree :=
    let '(r1, s1) := btree_take lower s in
    let '(r2, s2) := btree_take upper s1 in
    let '(left_side, center) := btree_split_off lower s2 in
    let '(_, right_side) := btree_split_off upper center in
    ((btree_last left_side, r1, r2, btree_first right_side), btree_append left_side right_side).

  (** src/tine_tree.rs 821-858: [interior_split_for_proper_interval]. *)
  Definition interior_split_for_proper_interval (dbg : bool) (lower upper : Tine T) s
    : res ((option (Tine T) * option (Tine T) * option (Tine T) *
            option (Tine T) * option (Tine T) * option (Tine T)) * TineTree) :=
    do _ <- debug_assert dbg (match tine_cmp lower upper with Lt => true | _ => false end);
    let '(r2, s1) := btree_take lower s in
    let '(r3, s2) := btree_take upper s1 in
    let '(left_side, center0) := btree_split_off lower s2 in
    let '(center, right_side) := btree_split_off upper center0 in
    let r0 := btree_last left_side in
    let r1 := btree_first center in
    let r4 := btree_last center in
    let r5 := btree_first right_side in
    do _ <- debug_assert dbg
              (Bool.eqb (match r1 with Some _ => true | None => false end)
                        (match r4 with Some _ => true | None => false end));
    Ok ((r0, r1, r2, r3, r4, r5), center).

  (** src/tine_tree.rs 431-485: [union_point_interval]. *)
  Definition union_point_interval (dbg : bool) (p : Tine T) s : res TineTree :=
    let '((t0, t1, t2), s) := exterior_split_for_point_interval p s in
    do merged <- match t1 with
                 | Some pt => tine_union dbg pt p
                 | None => Ok (Some p)
                 end;
    match merged with
    | None => Ok s
    | Some p =>
        let open_before := is_some_and is_lower_bound t0 in
        let closed_after := is_some_and is_upper_bound t2 in
        match open_before, closed_after with
        | true, true => Ok s
        | true, false =>
            do _ <- debug_assert dbg (negb (is_lower_bound p));
            Ok (btree_insert p s)
        | false, true =>
            do _ <- debug_assert dbg (negb (is_upper_bound p));
            Ok (btree_insert p s)
        | false, false => Ok (btree_insert p s)
        end
    end.

  (** src/tine_tree.rs 489-609: [union_proper_interval]. *)
  Definition union_proper_interval (dbg : bool) (l u : Tine T) s : res TineTree :=
    let '((t0, t1, t2, t3), s) := exterior_split_for_proper_interval l u s in
    do merged_l <- match t1 with Some lower => tine_union dbg lower l | None => Ok (Some l) end;
    do merged_u <- match t2 with Some upper => tine_union dbg upper u | None => Ok (Some u) end;
    do _ <- debug_assert dbg (map_or_true is_lower_bound merged_l);
    do _ <- debug_assert dbg (map_or_true is_upper_bound merged_u);
    let open_before := is_some_and is_lower_bound t0 in
    let closed_after := is_some_and is_upper_bound t3 in
    match open_before, merged_l, merged_u, closed_after with
    | true, Some l, Some u, true =>
        let s := if is_upper_bound l then btree_insert l s else s in
        let s := if is_lower_bound u then btree_insert u s else s in
        Ok s
    | true, Some l, Some u, false =>
        let s := if is_upper_bound l then btree_insert l s else s in
        do _ <- debug_assert dbg (negb (is_lower_bound u));
        Ok (btree_insert u s)
    | false, Some l, Some u, true =>
        do _ <- debug_assert dbg (negb (is_upper_bound l));
        let s := btree_insert l s in
        let s := if is_lower_bound u then btree_insert u s else s in
        Ok s
    | false, Some l, Some u, false =>
        do _ <- debug_assert dbg (negb (is_upper_bound l));
        let s := btree_insert l s in
        do _ <- debug_assert dbg (negb (is_lower_bound u));
        Ok (btree_insert u s)
    | true, Some l, None, true =>
        Ok (if is_point_exclude l then btree_insert l s else s)
    | false, Some l, None, true =>
        do _ <- debug_assert dbg (negb (is_upper_bound l));
        Ok (btree_insert l s)
    | true, None, Some u, true =>
        Ok (if is_point_exclude u then btree_insert u s else s)
    | true, None, Some u, false =>
        do _ <- debug_assert dbg (negb (is_lower_bound u));
        Ok (btree_insert u s)
    | true, None, None, true => Ok s
    | _, _, _, _ => Panic
    end.

  (** src/tine_tree.rs 414-426: [union_in_place].  [from_raw_interval] yields
      at most two tines, so the last case of the match does not arise. *)
  Definition tree_union_in_place (dbg : bool) s (i : RawInterval T) : res TineTree :=
    if raw_is_full i then Ok (tree_from_raw_interval Full)
    else match tine_from_raw_interval i with
         | [] => Ok s
         | [p] => union_point_interval dbg p s
         | [l; u] => union_proper_interval dbg l u s
         | _ => Panic
         end.

  (** src/tine_tree.rs 631-687: [minus_point_interval]. *)
  Definition minus_point_interval (dbg : bool) (p : Tine T) s : res TineTree :=
    let '((t0, t1, t2), s) := exterior_split_for_point_interval p s in
    do merged <- match t1 with
                 | Some pt => tine_minus dbg pt p
                 | None => Ok (Some p)
                 end;
    match merged with
    | None => Ok s
    | Some p =>
        let open_before := is_some_and is_lower_bound t0 in
        let closed_after := is_some_and is_upper_bound t2 in
        match open_before, closed_after with
        | true, true => do p' <- tine_invert p; Ok (btree_insert p' s)
        | true, false =>
            do _ <- debug_assert dbg (is_upper_bound p);
            Ok (btree_insert p s)
        | false, true =>
            do _ <- debug_assert dbg (is_lower_bound p);
            Ok (btree_insert p s)
        | false, false => Ok s
        end
    end.

  (** src/tine_tree.rs 730, 746: [if l.is_upper_bound() {l} else {l.invert()}]
      and 731, 763 for the other end. *)
  Definition as_upper (l : Tine T) : res (Tine T) :=
    if is_upper_bound l then Ok l else tine_invert l.
  Definition as_lower (u : Tine T) : res (Tine T) :=
    if is_lower_bound u then Ok u else tine_invert u.

  (** src/tine_tree.rs 693-803: [minus_proper_interval]. *)
  Definition minus_proper_interval (dbg : bool) (l u : Tine T) s : res TineTree :=
    let '((t0, t1, t2, t3), s) := exterior_split_for_proper_interval l u s in
    do merged_l <- match t1 with Some lower => tine_minus dbg lower l | None => Ok (Some l) end;
    do merged_u <- match t2 with Some upper => tine_minus dbg upper u | None => Ok (Some u) end;
    let open_before := is_some_and is_lower_bound t0 in
    let closed_after := is_some_and is_upper_bound t3 in
    match open_before, merged_l, merged_u, closed_after with
    | true, Some l, Some u, true =>
        do l' <- as_upper l;
        let s := btree_insert l' s in
        do u' <- as_lower u;
        Ok (btree_insert u' s)
    | true, Some l, upper, false =>
        do l' <- as_upper l;
        let s := btree_insert l' s in
        Ok (match upper with
            | Some (TPoint (Include p)) => btree_insert (TPoint (Include p)) s
            | _ => s
            end)
    | false, lower, Some u, true =>
        do u' <- as_lower u;
        let s := btree_insert u' s in
        Ok (match lower with
            | Some (TPoint (Include p)) => btree_insert (TPoint (Include p)) s
            | _ => s
            end)
    | false, Some l, Some u, false =>
        let s := if is_point_include l then btree_insert l s else s in
        let s := if is_point_include u then btree_insert u s else s in
        Ok s
    | false, Some l, None, false => Ok (if is_point_include l then btree_insert l s else s)
    | false, None, Some u, false => Ok (if is_point_include u then btree_insert u s else s)
    | false, None, None, false => Ok s
    | _, _, _, _ => Panic
    end.

  (** src/tine_tree.rs 612-627: [minus_in_place]. *)
  Definition tree_minus_in_place (dbg : bool) s (i : RawInterval T) : res TineTree :=
    if tree_is_empty s || raw_is_empty i then Ok s
    else if raw_is_full i then Ok tree_new
    else match tine_from_raw_interval i with
         | [] => Ok s
         | [p] => minus_point_interval dbg p s
         | [l; u] => minus_proper_interval dbg l u s
         | _ => Panic
         end.

  (** src/tine_tree.rs 323-411: [intersect_proper_interval]. *)
  Definition intersect_proper_interval (dbg : bool) (l u : Tine T) s : res TineTree :=
    do ((t0, t1, t2, t3, t4, t5), s) <- interior_split_for_proper_interval dbg l u s;
    do merged_l <- match t2 with Some lower => tine_intersect dbg lower l | None => Ok (Some l) end;
    do merged_u <- match t3 with Some upper => tine_intersect dbg upper u | None => Ok (Some u) end;
    do _ <- debug_assert dbg (map_or_true is_lower_bound merged_l);
    do _ <- debug_assert dbg (map_or_true is_upper_bound merged_u);
    let open_before := is_some_and is_lower_bound t0 in
    let closed_after := is_some_and is_upper_bound t5 in
    let in_l := is_some_and is_upper_bound t1 in
    let in_r := is_some_and is_lower_bound t4 in
    match open_before, merged_l, in_l, in_r, merged_u, closed_after with
    | _, Some l, true, true, Some u, _
    | _, Some l, false, false, Some u, _ => Ok (btree_insert u (btree_insert l s))
    | true, Some l, true, false, _, false => Ok (btree_insert l s)
    | false, _, false, true, Some u, true => Ok (btree_insert u s)
    | false, _, false, false, _, false => Ok s
    | _, _, _, _, _, _ => Panic
    end.

  (** src/tine_tree.rs 280-319: [intersect_in_place].  The [Few::One] and
      [Few::Zero] arms (304-313, 317) repeat the early exits and are dead. *)
  Definition tree_intersect_in_place (dbg : bool) s (i : RawInterval T) : res TineTree :=
    if tree_is_empty s || raw_is_full i then Ok s
    else if raw_is_empty i then Ok tree_new
    else match i with
         | Point pt =>
             do c <- tree_contains dbg s pt;
             Ok (if c then tree_from_raw_interval i else tree_new)
         | _ =>
             match tine_from_raw_interval i with
             | [] => Ok tree_new
             | [TPoint (Include p)] =>
                 do c <- tree_contains dbg s p;
                 Ok (if c then tree_from_raw_interval (Point p) else tree_new)
             | [l; u] => intersect_proper_interval dbg l u s
             | _ => Panic
             end
         end.

  (** src/tine_tree.rs 209-215: [union]. *)
  Definition tree_union (dbg : bool) s (other : TineTree) : res TineTree :=
    iter_fold dbg (fun acc i => tree_union_in_place dbg acc i) (tree_interval_iter other) s.

  (** src/tine_tree.rs 220-226: [minus]. *)
  Definition tree_minus (dbg : bool) s (other : TineTree) : res TineTree :=
    iter_fold dbg (fun acc i => tree_minus_in_place dbg acc i) (tree_interval_iter other) s.

  (** src/tine_tree.rs 188-201: the inner loop ['segment] of [intersect] for
      one interval of [self].  Result: the accumulator, the remaining iterator
      over [other], and whether [other] is exhausted (the early [return]). *)
  Fixpoint intersect_segment (fuel : nat) (dbg : bool) (i : RawInterval T) (it : Iter)
           (acc : TineTree) : res (TineTree * Iter * bool) :=
    match fuel with
    | 0 => Panic
    | S fuel =>
        do (x, it') <- iter_next dbg it;
        match x with
        | None => Ok (acc, it', true)
        | Some j =>
            let k := raw_intersect i j in
            if raw_is_empty k then Ok (acc, it', false)
            else do acc' <- tree_union_in_place dbg acc k;
                 intersect_segment fuel dbg i it' acc'
        end
    end.

  (** src/tine_tree.rs 187-203: the outer loop. *)
  Fixpoint intersect_loop (fuel : nat) (dbg : bool) (si oi : Iter) (acc : TineTree)
    : res TineTree :=
    match fuel with
    | 0 => Panic
    | S fuel =>
        do (x, si') <- iter_next dbg si;
        match x with
        | None => Ok acc
        | Some i =>
            do (acc', oi', done) <- intersect_segment (S (iter_size oi)) dbg i oi acc;
            if done then Ok acc' else intersect_loop fuel dbg si' oi' acc'
        end
    end.

  (** src/tine_tree.rs 182-204: [intersect]. *)
  Definition tree_intersect (dbg : bool) s (other : TineTree) : res TineTree :=
    let si := tree_interval_iter s in
    intersect_loop (S (iter_size si)) dbg si (tree_interval_iter other) tree_new.

  (** src/tine_tree.rs 232-266: [enclose]. *)
  Definition tree_enclose (dbg : bool) s : res (RawInterval T) :=
    match s with
    | [] => Ok Empty
    | [tine] =>
        do _ <- debug_assert dbg (is_point_include tine);
        match tine_as_ref tine with
        | Some pt => Ok (Point pt)
        | None => Panic (* expect("point Tine value") *)
        end
    | t :: rest =>
        match btree_last rest with
        | Some u => Ok (raw_new (tine_into_inner t) (tine_into_inner u))
        | None => Panic
        end
    end.

  (** src/tine_tree.rs 271-273: [closure]. *)
  Definition tree_closure (dbg : bool) s : res (RawInterval T) :=
    do i <- tree_enclose dbg s; Ok (raw_closure i).

  (** src/tine_tree.rs 975-987: [FromIterator<RawInterval<T>>]; 961-973 is the
      same for [From<I>]. *)
  Fixpoint tree_extend (dbg : bool) s (l : list (RawInterval T)) : res TineTree :=
    match l with
    | [] => Ok s
    | i :: l' => do s' <- tree_union_in_place dbg s i; tree_extend dbg s' l'
    end.
  Definition tree_from_iter (dbg : bool) (l : list (RawInterval T)) : res TineTree :=
    tree_extend dbg tree_new l.

  (** Derived [PartialEq] (src/tine_tree.rs 47): element-wise [==]. *)
  Fixpoint tree_eqb s (s' : TineTree) : bool :=
    match s, s' with
    | [], [] => true
    | a :: s, b :: s' => tine_eqb a b && tree_eqb s s'
    | _, _ => false
    end.
End TineTree.
Arguments TineTree T : clear implicits.
Arguments Iter T : clear implicits.
