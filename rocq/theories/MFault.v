(** * Model of panics in the value type's [Finite::pred] and [Finite::succ]

    [pred] and [succ] (src/normalize.rs 33-37) are code of the value type and may
    panic.  This file models the functions of src/normalize.rs,
    src/interval.rs and src/selection.rs that call them on something the caller
    can still see after the unwinding: [&mut self] methods and iterators. *)
From Coq Require Import List Bool.
From Verif Require Import Base MBound MRaw MNormalize MTine MBTree MTineTree MInterval MSelection MCrash.
Import ListNotations.

(** src/normalize.rs 33-37: [pred] and [succ] as they behave during one call of
    the crate. *)
Record stepper (T : Type) : Type := { fpred : T -> res (option T); fsucc : T -> res (option T) }.
Arguments fpred {T} s x.
Arguments fsucc {T} s x.

(** A call of [next] or [next_back] returns an item or unwinds; either way it
    leaves an iterator. *)
Inductive attempt (A S : Type) : Type :=
| Gave (a : A) (it : S)
| Failed (it : S).
Arguments Gave {A S} a it.
Arguments Failed {A S} it.

Section Fault.
  Context {T : Type} {O : Cmp T} {F : FiniteOps T}.
  Implicit Types (g : stepper T) (i : Interval T).

  (** src/normalize.rs 84-98: the new value [normalize] computes.  The two calls
      at 86 are made before either result is looked at. *)
  Definition normalized_fault g (r : RawInterval T) : res (RawInterval T) :=
    match r with
    | Empty => Ok Empty
    | Point p => Ok (Point p)
    | Open l r =>
        do l' <- fsucc g l; do r' <- fpred g r;
        Ok (match l', r' with Some l, Some r => Closed l r | _, _ => Empty end)
    | LeftOpen l r => do l' <- fsucc g l; Ok (match l' with Some l => Closed l r | None => Empty end)
    | RightOpen l r => do r' <- fpred g r; Ok (match r' with Some r => Closed l r | None => Empty end)
    | Closed l r => Ok (Closed l r)
    | UpTo r => do r' <- fpred g r; Ok (match r' with Some r => Closed MINIMUM r | None => Empty end)
    | UpFrom l => do l' <- fsucc g l; Ok (match l' with Some l => Closed l MAXIMUM | None => Empty end)
    | To p => Ok (Closed MINIMUM p)
    | From p => Ok (Closed p MAXIMUM)
    | Full => Ok (Closed MINIMUM MAXIMUM)
    end.

  (** src/normalize.rs 104-131: the new value [denormalize] computes. *)
  Definition denormalized_fault g (r : RawInterval T) : res (RawInterval T) :=
    match r with
    | Empty => Ok Empty
    | Point p =>
        do l' <- fpred g p; do r' <- fsucc g p;
        Ok (match l', r' with
            | Some l, Some r => Open l r
            | Some l, None => UpFrom l
            | None, Some r => UpTo r
            | None, None => Full
            end)
    | Open l r => Ok (Open l r)
    | LeftOpen l r => do r' <- fsucc g r; Ok (match r' with Some r => Open l r | None => UpFrom l end)
    | RightOpen l r => do l' <- fpred g l; Ok (match l' with Some l => Open l r | None => UpTo r end)
    | Closed l r =>
        do l' <- fpred g l; do r' <- fsucc g r;
        Ok (match l', r' with
            | Some l, Some r => Open l r
            | Some l, None => UpFrom l
            | None, Some r => UpTo r
            | None, None => Full
            end)
    | UpTo r => Ok (UpTo r)
    | UpFrom l => Ok (UpFrom l)
    | To p => do r' <- fpred g p; Ok (match r' with Some r => UpTo r | None => Empty end)
    | From p => do l' <- fsucc g p; Ok (match l' with Some l => UpFrom l | None => Empty end)
    | Full => Ok Full
    end.

  (** src/normalize.rs 81-99: [normalize]; [mem::replace] at 83 has put [Empty] into
      [*self] when [pred] and [succ] are called. *)
  Definition normalize_fault g (r : RawInterval T) : outcome (RawInterval T) :=
    during Empty (normalized_fault g r) (fun r' => Returned r').
  (** src/normalize.rs 101-132: [denormalize]; the same at 103. *)
  Definition denormalize_fault g (r : RawInterval T) : outcome (RawInterval T) :=
    during Empty (denormalized_fault g r) (fun r' => Returned r').

  (** src/selection.rs 761-763, 804-806, 847-849: the argument is denormalized before
      the tree is touched. *)
  Definition sel_intersect_in_place_fault (dbg : bool) g (s : Selection T) i : outcome (Selection T) :=
    during s (denormalized_fault g (interval_raw i)) (fun r => tree_intersect_in_place_crash dbg s r).
  Definition sel_union_in_place_fault (dbg : bool) g (s : Selection T) i : outcome (Selection T) :=
    during s (denormalized_fault g (interval_raw i)) (fun r => tree_union_in_place_crash dbg s r).
  Definition sel_minus_in_place_fault (dbg : bool) g (s : Selection T) i : outcome (Selection T) :=
    during s (denormalized_fault g (interval_raw i)) (fun r => tree_minus_in_place_crash dbg s r).

  (** src/selection.rs 909-920: [extend]; each interval comes with the behaviour of
      [pred] and [succ] while it is denormalized. *)
  Fixpoint sel_extend_fault (dbg : bool) (s : Selection T) (l : list (stepper T * Interval T)) : outcome (Selection T) :=
    match l with
    | [] => Returned s
    | (g, i) :: l' =>
        match sel_union_in_place_fault dbg g s i with
        | Returned s' => sel_extend_fault dbg s' l'
        | Unwound s' => Unwound s'
        end
    end.

  (** src/interval.rs 1871-1875: [minus] is lazy, so only the first piece is
      normalized. *)
  Definition first_or_empty_fault g (l : list (RawInterval T)) : res (Interval T) :=
    match l with [] => Ok interval_empty | r :: _ => do r' <- normalized_fault g r; Ok (mkInterval r') end.

  (** src/interval.rs 1868-1880: [next].  [self.inner] is assigned after all calls
      of [pred] and [succ]; [lb.clone().into()] (1872) makes none. *)
  Definition interval_next_fault g i : res (attempt (option T) (Interval T)) :=
    Ok match interval_lower_bound i with
       | Some (Include lb) =>
           match first_or_empty_fault g (raw_minus (interval_raw i) (interval_raw (interval_from_point lb))) with
           | Ok i' => Gave (Some lb) i'
           | Panic => Failed i
           end
       | None => Gave None i
       | _ => Failed i
       end.
  (** src/interval.rs 1886-1898: [next_back]. *)
  Definition interval_next_back_fault g i : res (attempt (option T) (Interval T)) :=
    Ok match interval_upper_bound i with
       | Some (Include ub) =>
           match first_or_empty_fault g (raw_minus (interval_raw i) (interval_raw (interval_from_point ub))) with
           | Ok i' => Gave (Some ub) i'
           | Panic => Failed i
           end
       | None => Gave None i
       | _ => Failed i
       end.

  (** src/selection.rs 1075-1076: [.map(Normalize::normalized).map(Interval::from)];
      the second normalizes again (src/interval.rs 1703-1705). *)
  Definition read_fault g (r : RawInterval T) : res (Interval T) :=
    do r' <- normalized_fault g r; do r'' <- normalized_fault g r'; Ok (mkInterval r'').

  (** src/selection.rs 1020-1025 and 977-982: [next] of the interval iterators.
      The tree iterator has moved on when [normalized] runs.  A panic of the
      tree iterator itself (malformed trees only) is [Panic], without a state. *)
  Definition sel_interval_next_fault (dbg : bool) g (it : Iter T) : res (attempt (option (Interval T)) (Iter T)) :=
    do (x, it') <- iter_next dbg it;
    Ok match x with
       | None => Gave None it'
       | Some r => match read_fault g r with Ok j => Gave (Some j) it' | Panic => Failed it' end
       end.
  (** src/selection.rs 1034-1039 and 990-995: [next_back]. *)
  Definition sel_interval_next_back_fault (dbg : bool) g (it : Iter T) : res (attempt (option (Interval T)) (Iter T)) :=
    do (x, it') <- iter_next_back dbg it;
    Ok match x with
       | None => Gave None it'
       | Some r => match read_fault g r with Ok j => Gave (Some j) it' | Panic => Failed it' end
       end.

  (** src/selection.rs 1130-1145 and 1068-1083: [next].  [self.current] is assigned
      after the new interval was normalized. *)
  Definition sel_next_fault (dbg : bool) g (it : SelIter T) : res (attempt (option T) (SelIter T)) :=
    do a <- interval_next_fault g (si_current it);
    match a with
    | Failed cur => Ok (Failed {| si_intervals := si_intervals it; si_current := cur |})
    | Gave (Some x) cur => Ok (Gave (Some x) {| si_intervals := si_intervals it; si_current := cur |})
    | Gave None cur =>
        do (y, its) <- iter_next dbg (si_intervals it);
        match y with
        | None => Ok (Gave None {| si_intervals := its; si_current := cur |})
        | Some r =>
            match read_fault g r with
            | Panic => Ok (Failed {| si_intervals := its; si_current := cur |})
            | Ok j =>
                do b <- interval_next_fault g j;
                Ok match b with
                   | Gave x cur' => Gave x {| si_intervals := its; si_current := cur' |}
                   | Failed cur' => Failed {| si_intervals := its; si_current := cur' |}
                   end
            end
        end
    end.

  (** src/selection.rs 1151-1166 and 1089-1104: [next_back]. *)
  Definition sel_next_back_fault (dbg : bool) g (it : SelIter T) : res (attempt (option T) (SelIter T)) :=
    do a <- interval_next_back_fault g (si_current it);
    match a with
    | Failed cur => Ok (Failed {| si_intervals := si_intervals it; si_current := cur |})
    | Gave (Some x) cur => Ok (Gave (Some x) {| si_intervals := si_intervals it; si_current := cur |})
    | Gave None cur =>
        do (y, its) <- iter_next_back dbg (si_intervals it);
        match y with
        | None => Ok (Gave None {| si_intervals := its; si_current := cur |})
        | Some r =>
            match read_fault g r with
            | Panic => Ok (Failed {| si_intervals := its; si_current := cur |})
            | Ok j =>
                do b <- interval_next_back_fault g j;
                Ok match b with
                   | Gave x cur' => Gave x {| si_intervals := its; si_current := cur' |}
                   | Failed cur' => Failed {| si_intervals := its; si_current := cur' |}
                   end
            end
        end
    end.
End Fault.
