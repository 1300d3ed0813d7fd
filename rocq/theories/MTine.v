(** * Model of src/tine.rs *)
From Coq Require Import List Bool.
From Verif Require Import Base MBound MRaw.
Import ListNotations.

(** src/tine.rs 35-42: [enum Tine<T>]. *)
Inductive Tine (T : Type) : Type :=
| TLower (b : Bound T)
| TPoint (b : Bound T)
| TUpper (b : Bound T).
Arguments TLower {T} b.
Arguments TPoint {T} b.
Arguments TUpper {T} b.

Section Tine.
  Context {T : Type}.

  (** src/tine.rs 47-64: [from_raw_interval] ([Few] as a list). *)
  Definition tine_from_raw_interval (i : RawInterval T) : list (Tine T) :=
    match i with
    | Empty => []
    | Point p => [TPoint (Include p)]
    | Open l r => [TLower (Exclude l); TUpper (Exclude r)]
    | LeftOpen l r => [TLower (Exclude l); TUpper (Include r)]
    | RightOpen l r => [TLower (Include l); TUpper (Exclude r)]
    | Closed l r => [TLower (Include l); TUpper (Include r)]
    | UpTo r => [TLower Infinite; TUpper (Exclude r)]
    | UpFrom l => [TLower (Exclude l); TUpper Infinite]
    | To r => [TLower Infinite; TUpper (Include r)]
    | From l => [TLower (Include l); TUpper Infinite]
    | Full => [TLower Infinite; TUpper Infinite]
    end.

  (** src/tine.rs 67-73: [is_lower_bound]. *)
  Definition is_lower_bound (t : Tine T) : bool :=
    match t with TLower _ | TPoint (Exclude _) => true | _ => false end.

  (** src/tine.rs 76-82: [is_upper_bound]. *)
  Definition is_upper_bound (t : Tine T) : bool :=
    match t with TUpper _ | TPoint (Exclude _) => true | _ => false end.

  (** src/tine.rs 85-89: [is_point_include]. *)
  Definition is_point_include (t : Tine T) : bool :=
    match t with TPoint (Include _) => true | _ => false end.

  (** src/tine.rs 93-97: [is_point_exclude]. *)
  Definition is_point_exclude (t : Tine T) : bool :=
    match t with TPoint (Exclude _) => true | _ => false end.

  (** src/tine.rs 111-118: [into_inner]. *)
  Definition tine_into_inner (t : Tine T) : Bound T :=
    match t with TLower x | TPoint x | TUpper x => x end.

  (** src/tine.rs 101-108: [as_ref]. *)
  Definition tine_as_ref (t : Tine T) : option T :=
    match t with TLower x | TPoint x | TUpper x => bound_as_ref x end.

  (** src/tine.rs 267-279: [invert], panicking on infinite tines. *)
  Definition tine_invert (t : Tine T) : res (Tine T) :=
    match t with
    | TLower (Include p) => Ok (TUpper (Exclude p))
    | TLower (Exclude p) => Ok (TUpper (Include p))
    | TPoint (Include p) => Ok (TPoint (Exclude p))
    | TPoint (Exclude p) => Ok (TPoint (Include p))
    | TUpper (Include p) => Ok (TLower (Exclude p))
    | TUpper (Exclude p) => Ok (TLower (Include p))
    | _ => Panic
    end.

  (** src/tine.rs 128-168: the match of [union]. *)
  Definition tine_union_match (a b : Tine T) : res (option (Tine T)) :=
    match a, b with
    | TLower (Include l), TLower (Exclude _) => Ok (Some (TLower (Include l)))
    | TLower (Exclude l), TLower (Include _) => Ok (Some (TLower (Include l)))
    | TLower lb, TLower _ => Ok (Some (TLower lb))

    | TLower (Include l), TPoint (Include _) => Ok (Some (TLower (Include l)))
    | TLower (Include _), TPoint (Exclude _) => Ok None
    | TLower (Exclude l), TPoint (Include _) => Ok (Some (TLower (Include l)))
    | TLower (Exclude l), TPoint (Exclude _) => Ok (Some (TPoint (Exclude l)))

    | TLower (Include _), TUpper (Include _) => Ok None
    | TLower (Include _), TUpper (Exclude _) => Ok None
    | TLower (Exclude _), TUpper (Include _) => Ok None
    | TLower (Exclude l), TUpper (Exclude _) => Ok (Some (TPoint (Exclude l)))

    | TPoint (Include l), TLower _ => Ok (Some (TLower (Include l)))
    | TPoint (Include l), TPoint (Include _) => Ok (Some (TPoint (Include l)))
    | TPoint (Include l), TUpper _ => Ok (Some (TUpper (Include l)))
    | TPoint (Include _), _ => Ok None

    | TPoint (Exclude l), TLower (Exclude _) => Ok (Some (TPoint (Exclude l)))
    | TPoint (Exclude l), TPoint (Exclude _) => Ok (Some (TPoint (Exclude l)))
    | TPoint (Exclude l), TUpper (Exclude _) => Ok (Some (TPoint (Exclude l)))
    | TPoint (Exclude _), _ => Ok None

    | TUpper (Include _), TLower (Include _) => Ok None
    | TUpper (Include _), TLower (Exclude _) => Ok None
    | TUpper (Exclude _), TLower (Include _) => Ok None
    | TUpper (Exclude l), TLower (Exclude _) => Ok (Some (TPoint (Exclude l)))

    | TUpper (Include l), TPoint (Include _) => Ok (Some (TUpper (Include l)))
    | TUpper (Include _), TPoint (Exclude _) => Ok None
    | TUpper (Exclude l), TPoint (Include _) => Ok (Some (TUpper (Include l)))
    | TUpper (Exclude l), TPoint (Exclude _) => Ok (Some (TPoint (Exclude l)))

    | TUpper (Include l), TUpper (Exclude _) => Ok (Some (TUpper (Include l)))
    | TUpper (Exclude l), TUpper (Include _) => Ok (Some (TUpper (Include l)))
    | TUpper lb, TUpper _ => Ok (Some (TUpper lb))

    | _, _ => Panic
    end.

  (** src/tine.rs 179-213: the match of [intersect]. *)
  Definition tine_intersect_match (a b : Tine T) : res (option (Tine T)) :=
    match a, b with
    | TLower (Include l), TLower (Exclude _) => Ok (Some (TLower (Exclude l)))
    | TLower (Exclude l), TLower (Include _) => Ok (Some (TLower (Exclude l)))
    | TLower lb, TLower _ => Ok (Some (TLower lb))

    | TLower (Include l), TPoint (Include _) => Ok (Some (TPoint (Include l)))
    | TLower (Exclude l), TPoint (Exclude _) => Ok (Some (TLower (Exclude l)))
    | TLower _, TPoint _ => Ok None

    | TLower (Include l), TUpper (Include _) => Ok (Some (TPoint (Include l)))
    | TLower _, TUpper _ => Ok None

    | TPoint (Include l), TLower (Include _) => Ok (Some (TPoint (Include l)))
    | TPoint (Include l), TPoint (Include _) => Ok (Some (TPoint (Include l)))
    | TPoint (Include l), TUpper (Include _) => Ok (Some (TPoint (Include l)))
    | TPoint (Include _), _ => Ok None

    | TPoint (Exclude l), TLower _ => Ok (Some (TLower (Exclude l)))
    | TPoint (Exclude _), TPoint (Include _) => Ok None
    | TPoint (Exclude l), TPoint (Exclude _) => Ok (Some (TPoint (Exclude l)))
    | TPoint (Exclude l), TUpper _ => Ok (Some (TUpper (Exclude l)))

    | TUpper (Include l), TLower (Include _) => Ok (Some (TPoint (Include l)))
    | TUpper _, TLower _ => Ok None

    | TUpper (Include l), TPoint (Include _) => Ok (Some (TPoint (Include l)))
    | TUpper (Exclude l), TPoint (Exclude _) => Ok (Some (TUpper (Exclude l)))
    | TUpper _, TPoint _ => Ok None

    | TUpper (Include l), TUpper (Exclude _) => Ok (Some (TUpper (Exclude l)))
    | TUpper (Exclude l), TUpper (Include _) => Ok (Some (TUpper (Exclude l)))
    | TUpper lb, TUpper _ => Ok (Some (TUpper lb))

    | _, _ => Panic
    end.

  (** src/tine.rs 224-258: the match of [minus]. *)
  Definition tine_minus_match (a b : Tine T) : res (option (Tine T)) :=
    match a, b with
    | TLower (Include l), TLower (Exclude _) => Ok (Some (TPoint (Include l)))
    | TLower _, TLower _ => Ok None

    | TLower (Include l), TPoint (Include _) => Ok (Some (TLower (Exclude l)))
    | TLower _, TPoint _ => Ok None

    | TLower (Include l), TUpper (Include _) => Ok (Some (TLower (Exclude l)))
    | TLower (Include l), TUpper (Exclude _) => Ok (Some (TLower (Include l)))
    | TLower (Exclude l), TUpper (Include _) => Ok (Some (TLower (Exclude l)))
    | TLower (Exclude l), TUpper (Exclude _) => Ok (Some (TLower (Exclude l)))

    | TPoint (Include _), TLower (Include _) => Ok None
    | TPoint (Include _), TPoint (Include _) => Ok None
    | TPoint (Include _), TUpper (Include _) => Ok None
    | TPoint (Include l), _ => Ok (Some (TPoint (Include l)))

    | TPoint (Exclude l), TLower _ => Ok (Some (TLower (Exclude l)))
    | TPoint (Exclude l), TPoint (Include _) => Ok (Some (TPoint (Exclude l)))
    | TPoint (Exclude _), TPoint (Exclude _) => Ok None
    | TPoint (Exclude l), TUpper _ => Ok (Some (TUpper (Exclude l)))

    | TUpper (Include l), TLower (Include _) => Ok (Some (TUpper (Exclude l)))
    | TUpper (Include l), TLower (Exclude _) => Ok (Some (TUpper (Include l)))
    | TUpper (Exclude l), TLower (Include _) => Ok (Some (TUpper (Exclude l)))
    | TUpper (Exclude l), TLower (Exclude _) => Ok (Some (TUpper (Exclude l)))

    | TUpper (Include l), TPoint (Include _) => Ok (Some (TUpper (Exclude l)))
    | TUpper _, TPoint _ => Ok None

    | TUpper (Include l), TUpper (Exclude _) => Ok (Some (TPoint (Include l)))
    | TUpper _, TUpper _ => Ok None

    | _, _ => Panic
    end.

  Context {O : Cmp T}.

  (** src/tine.rs 122-169: [union]. *)
  Definition tine_union (dbg : bool) (a b : Tine T) : res (option (Tine T)) :=
    do _ <- debug_assert dbg (opt_eqb (tine_as_ref a) (tine_as_ref b));
    tine_union_match a b.

  (** src/tine.rs 173-214: [intersect]. *)
  Definition tine_intersect (dbg : bool) (a b : Tine T) : res (option (Tine T)) :=
    do _ <- debug_assert dbg (opt_eqb (tine_as_ref a) (tine_as_ref b));
    tine_intersect_match a b.

  (** src/tine.rs 218-259: [minus]. *)
  Definition tine_minus (dbg : bool) (a b : Tine T) : res (option (Tine T)) :=
    do _ <- debug_assert dbg (opt_eqb (tine_as_ref a) (tine_as_ref b));
    tine_minus_match a b.

  (** src/tine.rs 285-307: [partial_cmp], with its [unreachable!]. *)
  Definition tine_partial_cmp (a b : Tine T) : res comparison :=
    match tine_as_ref a, tine_as_ref b with
    | Some l, Some r => Ok (cmp l r)
    | _, _ =>
        match a, b with
        | TLower Infinite, TLower Infinite => Ok Eq
        | TUpper Infinite, TUpper Infinite => Ok Eq
        | TLower Infinite, _ => Ok Lt
        | TUpper Infinite, _ => Ok Gt
        | _, TUpper Infinite => Ok Lt
        | _, TLower Infinite => Ok Gt
        | _, _ => Panic
        end
    end.

  (** src/tine.rs 312-314: [cmp].  Simplification: the set operations of
      MBTree.v need a comparison, not a [res]; where [partial_cmp] panics (only
      when [Point(Infinite)] meets a finite tine or itself) this returns [Eq].
      No operation of the crate builds [Point(Infinite)]: see [chain_ok] in
      the proofs. *)
  Definition tine_cmp (a b : Tine T) : comparison :=
    match tine_partial_cmp a b with Ok c => c | Panic => Eq end.

  (** Derived [PartialEq] of [Bound] and [Tine] (src/bound.rs 32, src/tine.rs 33). *)
  Definition bound_eqb (a b : Bound T) : bool :=
    match a, b with
    | Include x, Include y => eqb x y
    | Exclude x, Exclude y => eqb x y
    | Infinite, Infinite => true
    | _, _ => false
    end.
  Definition tine_eqb (a b : Tine T) : bool :=
    match a, b with
    | TLower x, TLower y => bound_eqb x y
    | TPoint x, TPoint y => bound_eqb x y
    | TUpper x, TUpper y => bound_eqb x y
    | _, _ => false
    end.
End Tine.
