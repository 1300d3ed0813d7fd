(** * Model of src/interval.rs *)
From Coq Require Import List Bool.
From Verif Require Import Base MBound MRaw MNormalize.
Import ListNotations.

(** src/interval.rs 50: [struct Interval<T>(pub(crate) RawInterval<T>)]. *)
Record Interval (T : Type) : Type := mkInterval { interval_raw : RawInterval T }.
Arguments mkInterval {T} interval_raw.
Arguments interval_raw {T} i.

(** The std range types, src/interval.rs 26-31. *)
Inductive StdRange (T : Type) : Type :=
| SRange (a b : T)          (* a..b *)
| SRangeFrom (a : T)        (* a..  *)
| SRangeTo (b : T)          (* ..b  *)
| SRangeToInclusive (b : T) (* ..=b *)
| SRangeFull.               (* ..   *)
Arguments SRange {T} a b.
Arguments SRangeFrom {T} a.
Arguments SRangeTo {T} b.
Arguments SRangeToInclusive {T} b.
Arguments SRangeFull {T}.

Section Interval.
  Context {T : Type} {O : Cmp T} {F : FiniteOps T}.
  Implicit Types i : Interval T.

  (** src/interval.rs 126-128: [new]. *)
  Definition interval_new (l r : Bound T) : Interval T := mkInterval (normalized (raw_new l r)).
  (** src/interval.rs 147-150: [empty]; 52-60: [Default]. *)
  Definition interval_empty : Interval T := mkInterval Empty.
  (** src/interval.rs 168-171: [point]. *)
  Definition interval_point (p : T) : Interval T := mkInterval (Point p).
  (** src/interval.rs 223-225: [open]. *)
  Definition interval_open (l r : T) : Interval T := mkInterval (normalized (raw_open l r)).
  (** src/interval.rs 293-295: [left_open]. *)
  Definition interval_left_open (l r : T) : Interval T := mkInterval (normalized (raw_left_open l r)).
  (** src/interval.rs 363-365: [right_open]. *)
  Definition interval_right_open (l r : T) : Interval T := mkInterval (normalized (raw_right_open l r)).
  (** src/interval.rs 415-417: [closed]. *)
  Definition interval_closed (l r : T) : Interval T := mkInterval (normalized (raw_closed l r)).
  (** src/interval.rs 485-487: [left_closed]. *)
  Definition interval_left_closed (l r : T) : Interval T := interval_right_open l r.
  (** src/interval.rs 555-557: [right_closed]. *)
  Definition interval_right_closed (l r : T) : Interval T := interval_left_open l r.
  (** src/interval.rs 595-597: [unbounded_from]. *)
  Definition interval_unbounded_from (p : T) : Interval T := mkInterval (normalized (From p)).
  (** src/interval.rs 635-637: [unbounded_to]. *)
  Definition interval_unbounded_to (p : T) : Interval T := mkInterval (normalized (To p)).
  (** src/interval.rs 675-677: [unbounded_up_from]. *)
  Definition interval_unbounded_up_from (p : T) : Interval T := mkInterval (normalized (UpFrom p)).
  (** src/interval.rs 715-717: [unbounded_up_to]. *)
  Definition interval_unbounded_up_to (p : T) : Interval T := mkInterval (normalized (UpTo p)).
  (** src/interval.rs 754-756: [full]. *)
  Definition interval_full : Interval T := mkInterval (normalized Full).

  (** src/interval.rs 1698-1706: [From<RawInterval<T>>]. *)
  Definition interval_from_raw (r : RawInterval T) : Interval T := mkInterval (normalized r).
  (** src/interval.rs 1709-1717: [From<T>]. *)
  Definition interval_from_point (p : T) : Interval T := mkInterval (normalized (Point p)).
  (** src/interval.rs 1723-1731, 1746-1784: [From] for the std ranges. *)
  Definition interval_from_range (r : StdRange T) : Interval T :=
    match r with
    | SRange a b => mkInterval (normalized (raw_right_open a b))
    | SRangeFrom a => mkInterval (normalized (From a))
    | SRangeTo b => mkInterval (normalized (UpTo b))
    | SRangeToInclusive b => mkInterval (normalized (To b))
    | SRangeFull => mkInterval (normalized Full)
    end.

  (** src/interval.rs 834-836: [lower_bound]. *)
  Definition interval_lower_bound i : option (Bound T) := raw_lower_bound (interval_raw i).
  (** src/interval.rs 877-879: [upper_bound]. *)
  Definition interval_upper_bound i : option (Bound T) := raw_upper_bound (interval_raw i).
  (** src/interval.rs 917-919: [infimum]. *)
  Definition interval_infimum i : option T := raw_infimum (interval_raw i).
  (** src/interval.rs 958-960: [supremum]. *)
  Definition interval_supremum i : option T := raw_supremum (interval_raw i).
  (** src/interval.rs 978-983: [size]; [sub] is [T: Sub]. *)
  Definition interval_size (sub : T -> T -> res T) i : res (option T) :=
    match interval_infimum i, interval_supremum i with
    | Some l, Some u => do d <- sub u l; Ok (Some d)
    | _, _ => Ok None
    end.

  (** src/interval.rs 1008-1010: [is_empty]. *)
  Definition interval_is_empty i : bool := match interval_raw i with Empty => true | _ => false end.
  (** src/interval.rs 1031-1033: [is_degenerate]. *)
  Definition interval_is_degenerate i : bool :=
    match interval_raw i with Point _ => true | _ => false end.
  (** src/interval.rs 1057-1061: [is_proper]. *)
  Definition interval_is_proper i : bool :=
    negb (match interval_raw i with Empty | Point _ => true | _ => false end).
  (** src/interval.rs 1099-1103: [is_open]. *)
  Definition interval_is_open i : bool :=
    negb (match interval_raw i with Point _ | Closed _ _ => true | _ => false end).
  (** src/interval.rs 1141-1147: [is_left_open]. *)
  Definition interval_is_left_open i : bool :=
    match interval_raw i with LeftOpen _ _ | UpTo _ | To _ | Full => true | _ => false end.
  (** src/interval.rs 1185-1191: [is_right_open]. *)
  Definition interval_is_right_open i : bool :=
    match interval_raw i with RightOpen _ _ | UpFrom _ | From _ | Full => true | _ => false end.
  (** src/interval.rs 1229-1234: [is_half_open]. *)
  Definition interval_is_half_open i : bool :=
    negb (match interval_raw i with Empty | Point _ | Closed _ _ => true | _ => false end).
  (** src/interval.rs 1272-1278: [is_closed]. *)
  Definition interval_is_closed i : bool :=
    match interval_raw i with Empty | Point _ | Closed _ _ | Full => true | _ => false end.
  (** src/interval.rs 1299-1305: [is_left_closed]. *)
  Definition interval_is_left_closed i : bool :=
    match interval_raw i with Point _ | RightOpen _ _ | Closed _ _ | From _ => true | _ => false end.
  (** src/interval.rs 1326-1332: [is_right_closed]. *)
  Definition interval_is_right_closed i : bool :=
    match interval_raw i with Point _ | LeftOpen _ _ | Closed _ _ | To _ => true | _ => false end.
  (** src/interval.rs 1353-1359: [is_half_closed]. *)
  Definition interval_is_half_closed i : bool :=
    match interval_raw i with LeftOpen _ _ | RightOpen _ _ | To _ | From _ => true | _ => false end.
  (** src/interval.rs 1380-1387: [is_bounded]. *)
  Definition interval_is_bounded i : bool :=
    negb (match interval_raw i with UpTo _ | UpFrom _ | To _ | From _ | Full => true | _ => false end).
  (** src/interval.rs 1408-1413: [is_left_bounded]. *)
  Definition interval_is_left_bounded i : bool :=
    negb (match interval_raw i with UpTo _ | To _ | Full => true | _ => false end).
  (** src/interval.rs 1435-1440: [is_right_bounded]. *)
  Definition interval_is_right_bounded i : bool :=
    negb (match interval_raw i with UpFrom _ | From _ | Full => true | _ => false end).
  (** src/interval.rs 1461-1467: [is_half_bounded]. *)
  Definition interval_is_half_bounded i : bool :=
    match interval_raw i with UpTo _ | UpFrom _ | To _ | From _ => true | _ => false end.
  (** src/interval.rs 782-788: [into_non_empty]. *)
  Definition interval_into_non_empty i : option (Interval T) :=
    if interval_is_empty i then None else Some i.

  (** src/interval.rs 1488-1490: [contains]. *)
  Definition interval_contains i (x : T) : bool := raw_contains (interval_raw i) x.
  (** src/interval.rs 1516-1518: [intersects]. *)
  Definition interval_intersects i (j : Interval T) : bool :=
    raw_intersects (interval_raw i) (interval_raw j).
  (** src/interval.rs 1541-1544: [is_adjacent_to]. *)
  Definition interval_is_adjacent_to i (j : Interval T) : bool :=
    raw_is_adjacent_to (interval_raw i) (interval_raw j).

  (** src/interval.rs 1568-1573: [complement]. *)
  Definition interval_complement i : list (Interval T) :=
    map (fun r => mkInterval (normalized r)) (raw_complement (interval_raw i)).
  (** src/interval.rs 1593-1595: [intersect]; [.into()] is 1698-1706, which
      normalizes again. *)
  Definition interval_intersect i (j : Interval T) : Interval T :=
    interval_from_raw (normalized (raw_intersect (interval_raw i) (interval_raw j))).
  (** src/interval.rs 1615-1621: [union]. *)
  Definition interval_union i (j : Interval T) : list (Interval T) :=
    map (fun r => mkInterval (normalized r)) (raw_union (interval_raw i) (interval_raw j)).
  (** src/interval.rs 1641-1647: [minus]. *)
  Definition interval_minus i (j : Interval T) : list (Interval T) :=
    map (fun r => mkInterval (normalized r)) (raw_minus (interval_raw i) (interval_raw j)).
  (** src/interval.rs 1667-1669: [enclose]. *)
  Definition interval_enclose i (j : Interval T) : Interval T :=
    interval_from_raw (normalized (raw_enclose (interval_raw i) (interval_raw j))).
  (** src/interval.rs 1688-1690: [closure]. *)
  Definition interval_closure i : Interval T :=
    interval_from_raw (normalized (raw_closure (interval_raw i))).

  (** src/interval.rs 1858-1861: [Iter] holds the remaining interval;
      1821-1825: [iter]; 1836-1838, 1848-1850: [into_iter]. *)
  Definition interval_iter i : Interval T := i.

  (** src/interval.rs 1872-1874: [minus(..).next().unwrap_or_else(empty)]. *)
  Definition first_or_empty (l : list (Interval T)) : Interval T :=
    match l with [] => interval_empty | j :: _ => j end.

  (** src/interval.rs 1868-1880: [next]. *)
  Definition interval_next i : res (option T * Interval T) :=
    match interval_lower_bound i with
    | Some (Include lb) =>
        Ok (Some lb, first_or_empty (interval_minus i (interval_from_point lb)))
    | None => Ok (None, i)
    | _ => Panic
    end.

  (** src/interval.rs 1886-1898: [next_back]. *)
  Definition interval_next_back i : res (option T * Interval T) :=
    match interval_upper_bound i with
    | Some (Include ub) =>
        Ok (Some ub, first_or_empty (interval_minus i (interval_from_point ub)))
    | None => Ok (None, i)
    | _ => Panic
    end.
End Interval.
