(** * Specification vocabulary

    What the property statements mean, in terms of the order on [T] only.
    Nothing here refers to how the code computes. *)
From Coq Require Import List Bool Sorted.
From Verif Require Import Base MBound MRaw MTine MTineTree.
Import ListNotations.

Section Spec.
  Context {T : Type} {O : Cmp T}.

  (** [x] is on the inner side of a lower (upper) bound. *)
  Definition above (b : Bound T) (x : T) : Prop :=
    match b with Include l => le l x | Exclude l => lt l x | Infinite => True end.
  Definition below (b : Bound T) (x : T) : Prop :=
    match b with Include u => le x u | Exclude u => lt x u | Infinite => True end.

  (** Bounds at one point, one including and one excluding it. *)
  Definition mixed_at (l u : Bound T) (x : T) : Prop :=
    match l, u with
    | Include p, Exclude q | Exclude p, Include q => p = q /\ x = p
    | _, _ => False
    end.

  (** The lower bound [a] starts no later than the lower bound [b]. *)
  Definition lower_no_later (a b : Bound T) : Prop :=
    match a, b with
    | Infinite, _ => True
    | _, Infinite => False
    | Exclude x, Include y => lt x y
    | Include x, Include y | Include x, Exclude y | Exclude x, Exclude y => le x y
    end.
  Definition starts_no_later (i j : RawInterval T) : Prop :=
    match raw_lower_bound i, raw_lower_bound j with
    | Some a, Some b => lower_no_later a b
    | _, _ => True
    end.

  (** The set of points an interval denotes in interval notation. *)
  Definition points (i : RawInterval T) (x : T) : Prop :=
    match i with
    | Empty => False
    | Point p => x = p
    | Open l r => lt l x /\ lt x r
    | LeftOpen l r => lt l x /\ le x r
    | RightOpen l r => le l x /\ lt x r
    | Closed l r => le l x /\ le x r
    | UpTo p => lt x p
    | UpFrom p => lt p x
    | To p => le x p
    | From p => le p x
    | Full => True
    end.

  (** An interval as the constructors build it: the lower point is strictly
      below the upper point. *)
  Definition raw_wf (i : RawInterval T) : Prop :=
    match i with
    | Open l r | LeftOpen l r | RightOpen l r | Closed l r => lt l r
    | _ => True
    end.

  (** Some interval of a list contains [x]. *)
  Definition some_contains (l : list (RawInterval T)) (x : T) : Prop :=
    exists i, In i l /\ raw_contains i x = true.

  Definition disjoint (i j : RawInterval T) : Prop :=
    forall x, raw_contains i x = true -> raw_contains j x = true -> False.

  (** No two intervals of a list (at different places) share a point. *)
  Definition pairwise_disjoint (l : list (RawInterval T)) : Prop :=
    ForallOrdPairs disjoint l.

  (** [i] lies entirely before [j], and they do not touch: some point, or
      nothing at all, fits between, but their union is not an interval.  In
      terms of bounds: the end of [i] is below the start of [j], or they are at
      one point that both exclude. *)
  Definition separated (i j : RawInterval T) : Prop :=
    match raw_upper_bound i, raw_lower_bound j with
    | Some (Exclude a), Some (Exclude b) => le a b
    | Some (Include a), Some (Include b) => lt a b
    | Some (Include a), Some (Exclude b) => lt a b
    | Some (Exclude a), Some (Include b) => lt a b
    | _, _ => False
    end.

  (** Between any two values there is a third; no least or greatest value. *)
  Definition dense : Prop := forall x y : T, lt x y -> exists z, lt x z /\ lt z y.
  Definition unbounded : Prop :=
    (forall x : T, exists y, lt x y) /\ (forall x : T, exists y, lt y x).

  (** ** Trees *)

  (** The alternation of tines in a tree: an interval starts only outside and
      ends only inside one; a single point sits outside, a hole inside. *)
  Fixpoint alternates (inside : bool) (s : TineTree T) : bool :=
    match s with
    | [] => negb inside
    | TLower _ :: s' => negb inside && alternates true s'
    | TPoint (Include _) :: s' => negb inside && alternates false s'
    | TPoint (Exclude _) :: s' => inside && alternates true s'
    | TPoint Infinite :: _ => false
    | TUpper _ :: s' => inside && alternates false s'
    end.

  (** A well-formed tree.  [tree_wf_iff_built] (Properties_Tree.v) shows these are
      exactly the trees built by the public union and complement operations. *)
  Definition tree_wf (s : TineTree T) : Prop :=
    StronglySorted (fun a b => tine_cmp a b = Lt) s /\ alternates false s = true.

  (** The tree answers membership queries exactly as the set [P], without
      panicking. *)
  Definition tree_is (dbg : bool) (s : TineTree T) (P : T -> Prop) : Prop :=
    forall x, exists b, tree_contains dbg s x = Ok b /\ (b = true <-> P x).
End Spec.

Arguments dense T {O}.
Arguments unbounded T {O}.

(** ** Iterators.  [drains next it l]: calling [next] repeatedly from state
    [it] yields the items of [l] in order and then [None]. *)
Inductive drains {S A} (next : S -> res (option A * S)) : S -> list A -> Prop :=
| drains_nil it it' : next it = Ok (None, it') -> drains next it []
| drains_cons it it' a l :
    next it = Ok (Some a, it') -> drains next it' l -> drains next it (a :: l).

(** A schedule of calls to a double-ended iterator. *)
Inductive side := Front | Back.

(** [runs next next_back it sched out]: making the calls of [sched] from state
    [it] does not panic and returns [out], one option per call. *)
Inductive runs {S A} (next next_back : S -> res (option A * S))
  : S -> list side -> list (option A) -> Prop :=
| runs_nil it : runs next next_back it [] []
| runs_front it it' o sched out :
    next it = Ok (o, it') -> runs next next_back it' sched out ->
    runs next next_back it (Front :: sched) (o :: out)
| runs_back it it' o sched out :
    next_back it = Ok (o, it') -> runs next next_back it' sched out ->
    runs next next_back it (Back :: sched) (o :: out).

(** What a double-ended iterator over the list [l] must return. *)
Fixpoint deque_run {A} (l : list A) (sched : list side) : list (option A) :=
  match sched with
  | [] => []
  | Front :: sched' =>
      match l with
      | [] => None :: deque_run [] sched'
      | a :: l' => Some a :: deque_run l' sched'
      end
  | Back :: sched' =>
      match rev l with
      | [] => None :: deque_run [] sched'
      | a :: l' => Some a :: deque_run (rev l') sched'
      end
  end.

(** ** Intervals over a [Finite] type *)
From Verif Require Import MNormalize MInterval.

Section SpecInterval.
  Context {T : Type} {O : Cmp T} {F : FiniteOps T}.

  (** An open pair of neighbours, [(x, x+1)]: the one shape of raw interval
      that is not [Empty] although no value lies in it. *)
  Definition gap (r : RawInterval T) : Prop :=
    match r with Open l u => succ l = Some u | _ => False end.

  (** Intervals obtained through the public API.  With [strict = true] the
      constructors that take arbitrary bounds are not applied to a [gap]. *)
  Inductive reach (strict : bool) : Interval T -> Prop :=
  | R_new l u : (strict = true -> ~ gap (raw_new l u)) -> reach strict (interval_new l u)
  | R_empty : reach strict interval_empty
  | R_point p : reach strict (interval_point p)
  | R_open l r : (strict = true -> ~ gap (Open l r)) -> reach strict (interval_open l r)
  | R_left_open l r : reach strict (interval_left_open l r)
  | R_right_open l r : reach strict (interval_right_open l r)
  | R_closed l r : reach strict (interval_closed l r)
  | R_left_closed l r : reach strict (interval_left_closed l r)
  | R_right_closed l r : reach strict (interval_right_closed l r)
  | R_unbounded_from p : reach strict (interval_unbounded_from p)
  | R_unbounded_to p : reach strict (interval_unbounded_to p)
  | R_unbounded_up_from p : reach strict (interval_unbounded_up_from p)
  | R_unbounded_up_to p : reach strict (interval_unbounded_up_to p)
  | R_full : reach strict interval_full
  | R_from_raw r : raw_wf r -> (strict = true -> ~ gap r) -> reach strict (interval_from_raw r)
  | R_from_point p : reach strict (interval_from_point p)
  | R_from_range r : reach strict (interval_from_range r)
  | R_intersect i j : reach strict i -> reach strict j -> reach strict (interval_intersect i j)
  | R_enclose i j : reach strict i -> reach strict j -> reach strict (interval_enclose i j)
  | R_closure i : reach strict i -> reach strict (interval_closure i)
  | R_union i j k : reach strict i -> reach strict j -> In k (interval_union i j) -> reach strict k
  | R_minus i j k : reach strict i -> reach strict j -> In k (interval_minus i j) -> reach strict k
  | R_complement i k : reach strict i -> In k (interval_complement i) -> reach strict k.

  (** The list is the ascending list of the members of a set. *)
  Definition lists (l : list T) (P : T -> Prop) : Prop :=
    StronglySorted lt l /\ forall x, In x l <-> P x.

  (** [m] is the least (greatest) member of [P]. *)
  Definition least (P : T -> Prop) (m : T) : Prop := P m /\ forall x, P x -> le m x.
  Definition greatest (P : T -> Prop) (m : T) : Prop := P m /\ forall x, P x -> le x m.
  Definition ipoints (i : Interval T) (x : T) : Prop := interval_contains i x = true.

  Definition some_icontains (l : list (Interval T)) (x : T) : Prop :=
    exists i, In i l /\ interval_contains i x = true.

  (** Membership in the std ranges. *)
  Definition in_range (r : StdRange T) (x : T) : Prop :=
    match r with
    | SRange a b => le a x /\ lt x b
    | SRangeFrom a => le a x
    | SRangeTo b => lt x b
    | SRangeToInclusive b => le x b
    | SRangeFull => True
    end.
End SpecInterval.
