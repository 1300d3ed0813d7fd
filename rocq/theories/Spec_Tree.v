(** * Specification vocabulary for trees

    As Spec.v: in terms of the order, the intervals a tree yields and the
    results of API calls. *)
From Coq Require Import List Bool.
From Verif Require Import Base MBound MRaw MTine MTineTree Spec.
Import ListNotations.

Section SpecTree.
  Context {T : Type} {O : Ord T}.
  Implicit Types (s : TineTree T) (i j k : RawInterval T) (l : list (RawInterval T)) (x : T).

  (** Trees obtained through the public constructors and operations.  The
      in-place and whole-tree [minus] and [intersect_in_place] are left out:
      they can produce trees outside this class (C36, C40). *)
  Inductive built (dbg : bool) : TineTree T -> Prop :=
  | B_new : built dbg tree_new
  | B_interval i : raw_wf i -> built dbg (tree_from_raw_interval i)
  | B_collect l s : Forall raw_wf l -> tree_from_iter dbg l = Ok s -> built dbg s
  | B_union_in_place s i s' : built dbg s -> raw_wf i -> tree_union_in_place dbg s i = Ok s' -> built dbg s'
  | B_union s1 s2 s' : built dbg s1 -> built dbg s2 -> tree_union dbg s1 s2 = Ok s' -> built dbg s'
  | B_complement s s' : built dbg s -> tree_complement dbg s = Ok s' -> built dbg s'
  | B_intersect s1 s2 s' : built dbg s1 -> built dbg s2 -> tree_intersect dbg s1 s2 = Ok s' -> built dbg s'.

  (** The tree answers [true] ([false]) for [x], without panicking. *)
  Definition holds (dbg : bool) s x : Prop := tree_contains dbg s x = Ok true.

  (** The call returned a well-formed tree with exactly the points of [P]. *)
  Definition exact (dbg : bool) (r : res (TineTree T)) (P : T -> Prop) : Prop :=
    exists s, r = Ok s /\ tree_wf s /\ tree_is dbg s P.

  (** The intervals of a tree, first to last. *)
  Definition intervals_are (dbg : bool) s l : Prop := drains (iter_next dbg) (tree_interval_iter s) l.

  (** ** Tines as neighbourhoods: is the set present just below the position,
      at it, and just above it? *)
  Definition neighbourhood (t : Tine T) : bool * bool * bool :=
    match t with
    | TLower (Exclude _) => (false, false, true)
    | TLower _ => (false, true, true)
    | TPoint (Exclude _) => (true, false, true)
    | TPoint _ => (false, true, false)
    | TUpper (Exclude _) => (true, false, false)
    | TUpper _ => (true, true, false)
    end.
  Definition combine (f : bool -> bool -> bool) (a b : bool * bool * bool) : bool * bool * bool :=
    let '(a1, a2, a3) := a in let '(b1, b2, b3) := b in (f a1 b1, f a2 b2, f a3 b3).
  (** A tine describes its neighbourhood; no tine, a uniform one. *)
  Definition describes (o : option (Tine T)) (n : bool * bool * bool) : Prop :=
    match o with
    | Some t => neighbourhood t = n
    | None => n = (false, false, false) \/ n = (true, true, true)
    end.

  (** Two tines at the same position. *)
  Definition same_place (a b : Tine T) : Prop :=
    match tine_as_ref a, tine_as_ref b with
    | Some x, Some y => x = y
    | None, None =>
        match a, b with
        | TLower _, TLower _ | TUpper _, TUpper _ => True
        | _, _ => False
        end
    | _, _ => False
    end.

  (** ** Ends of intervals *)
  Definition bound_at (b : Bound T) x : Prop :=
    match b with Include y | Exclude y => x = y | Infinite => False end.
  Definition ends_at i x : Prop :=
    (exists b, raw_lower_bound i = Some b /\ bound_at b x) \/ (exists b, raw_upper_bound i = Some b /\ bound_at b x).

  (** [x] is an excluded end of some interval of the list. *)
  Definition excluded_end l x : Prop :=
    exists i, In i l /\ (raw_lower_bound i = Some (Exclude x) \/ raw_upper_bound i = Some (Exclude x)).
  (** One interval of the list ends and another starts just beside [x]:
      [.. , x) (x, ..]. *)
  Definition pinhole l x : Prop :=
    exists i j, In i l /\ In j l /\ raw_upper_bound i = Some (Exclude x) /\ raw_lower_bound j = Some (Exclude x).

  (** What makes [minus_in_place] of [i] go wrong on a tree with intervals [l]:
      removing a point that is an excluded end already, or an interval one of
      whose ends sits in a pinhole. *)
  Definition minus_obstacle l i : Prop :=
    match i with
    | Point x => excluded_end l x
    | _ => exists x, ends_at i x /\ pinhole l x
    end.

  (** ** The tree around the ends of an interval, for [intersect_in_place] *)
  Definition starts_before i x : Prop :=
    match raw_lower_bound i with Some (Include y) | Some (Exclude y) => lt y x | Some Infinite => True | None => False end.
  Definition starts_by i x : Prop :=
    match raw_lower_bound i with Some (Include y) | Some (Exclude y) => le y x | Some Infinite => True | None => False end.
  Definition stops_after i x : Prop :=
    match raw_upper_bound i with Some (Include y) | Some (Exclude y) => lt x y | Some Infinite => True | None => False end.
  Definition stops_from i x : Prop :=
    match raw_upper_bound i with Some (Include y) | Some (Exclude y) => le x y | Some Infinite => True | None => False end.

  (** Some interval of [l] fills the space just below (just above) [x]. *)
  Definition filled_below l x : Prop := exists i, In i l /\ starts_before i x /\ stops_from i x.
  Definition filled_above l x : Prop := exists i, In i l /\ starts_by i x /\ stops_after i x.

  (** Is the set present just outside / at / just inside a lower end [b]? *)
  Definition out_lower l (b : Bound T) : Prop :=
    match b with Include x | Exclude x => filled_below l x | Infinite => False end.
  Definition at_lower l (b : Bound T) : Prop :=
    match b with
    | Include x | Exclude x => some_contains l x
    | Infinite => exists i, In i l /\ raw_lower_bound i = Some Infinite
    end.
  Definition in_lower l (b : Bound T) : Prop :=
    match b with
    | Include x | Exclude x => filled_above l x
    | Infinite => exists i, In i l /\ raw_lower_bound i = Some Infinite
    end.
  (** The same at an upper end. *)
  Definition out_upper l (b : Bound T) : Prop :=
    match b with Include x | Exclude x => filled_above l x | Infinite => False end.
  Definition at_upper l (b : Bound T) : Prop :=
    match b with
    | Include x | Exclude x => some_contains l x
    | Infinite => exists i, In i l /\ raw_upper_bound i = Some Infinite
    end.
  Definition in_upper l (b : Bound T) : Prop :=
    match b with
    | Include x | Exclude x => filled_below l x
    | Infinite => exists i, In i l /\ raw_upper_bound i = Some Infinite
    end.
  Definition inclusive (b : Bound T) : Prop := match b with Exclude _ => False | _ => True end.

  (** The inputs on which [intersect_in_place] is right. *)
  Definition intersect_domain (dbg : bool) l i : Prop :=
    match i with
    | Empty | Full | Point _ => True
    | _ =>
        l = [] \/
        exists lo up, raw_lower_bound i = Some lo /\ raw_upper_bound i = Some up /\
          let outL := out_lower l lo in let inL := in_lower l lo in
          let outU := out_upper l up in let inU := in_upper l up in
          let keptL := at_lower l lo /\ inclusive lo in
          let keptU := at_upper l up /\ inclusive up in
          (* both ends lie inside intervals of the tree *)
          (inL /\ inU) \/
          (* the tree runs through the lower end only *)
          (outL /\ inL /\ ~ inU /\ ~ outU /\ ~ keptU) \/
          (* ... through the upper end only *)
          (~ outL /\ ~ inL /\ inU /\ outU /\ ~ keptL) \/
          (* ... through neither, but a point the interval excludes sits at an end *)
          (~ outL /\ ~ inL /\ ~ inU /\ ~ outU /\ ~ keptL /\ ~ keptU /\ (at_lower l lo \/ at_upper l up)) \/
          (* both ends are kept points; the debug build panics here *)
          (dbg = false /\ ~ inL /\ ~ inU /\ keptL /\ keptU)
    end.
End SpecTree.
