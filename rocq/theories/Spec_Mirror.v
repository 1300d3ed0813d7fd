(** * Specification vocabulary for reversed orders

    [f] maps [T] to a type ordered the other way round, for instance
    [std::cmp::Reverse], or negation of numbers.  The functions below replace
    every value [x] in a data structure by [f x] and exchange left and right. *)
From Coq Require Import List Bool.
From Verif Require Import Base MBound MRaw MNormalize MInterval MTine MTineTree MSelection Spec Spec_Sel Spec_Key Spec_History.
Import ListNotations.

Section Mirror.
  Context {T U : Type} (f : T -> U).

  Definition raw_mirror (i : RawInterval T) : RawInterval U :=
    match i with
    | Empty => Empty
    | Point p => Point (f p)
    | Open l r => Open (f r) (f l)
    | LeftOpen l r => RightOpen (f r) (f l)
    | RightOpen l r => LeftOpen (f r) (f l)
    | Closed l r => Closed (f r) (f l)
    | UpTo p => UpFrom (f p)
    | UpFrom p => UpTo (f p)
    | To p => From (f p)
    | From p => To (f p)
    | Full => Full
    end.

  Definition tine_mirror (t : Tine T) : Tine U :=
    match t with
    | TLower b => TUpper (bound_key f b)
    | TPoint b => TPoint (bound_key f b)
    | TUpper b => TLower (bound_key f b)
    end.

  (** The set is read from the other end. *)
  Definition tree_mirror (s : TineTree T) : TineTree U := rev (map tine_mirror s).

  Definition interval_mirror (i : Interval T) : Interval U := mkInterval (raw_mirror (interval_raw i)).

  (** Lists of intervals in ascending order. *)
  Definition raws_mirror (l : list (RawInterval T)) : list (RawInterval U) := rev (map raw_mirror l).
  Definition intervals_mirror (l : list (Interval T)) : list (Interval U) := rev (map interval_mirror l).

  (** The program with every interval and value it is given mirrored. *)
  Fixpoint prog_mirror (p : prog T) : prog U :=
    match p with
    | P_new => P_new
    | P_full => P_full
    | P_from i => P_from (interval_mirror i)
    | P_intervals l => P_intervals (map interval_mirror l)
    | P_points l => P_points (map f l)
    | P_extend p l => P_extend (prog_mirror p) (map interval_mirror l)
    | P_union_in_place p i => P_union_in_place (prog_mirror p) (interval_mirror i)
    | P_union p q => P_union (prog_mirror p) (prog_mirror q)
    | P_complement p => P_complement (prog_mirror p)
    | P_intersect p q => P_intersect (prog_mirror p) (prog_mirror q)
    | P_minus_in_place p i => P_minus_in_place (prog_mirror p) (interval_mirror i)
    end.
End Mirror.

(** [f] reverses the order ... *)
Definition reverses {T U} {CT : Cmp T} {CU : Cmp U} (f : T -> U) : Prop :=
  forall x y : T, cmp (f x) (f y) = cmp y x.

(** ... and exchanges first and last, previous and next value. *)
Definition finite_reverses {T U} {FT : FiniteOps T} {FU : FiniteOps U} (f : T -> U) : Prop :=
  f MINIMUM = MAXIMUM /\ f MAXIMUM = MINIMUM /\
  (forall x, option_map f (pred x) = succ (f x)) /\
  (forall x, option_map f (succ x) = pred (f x)).

(** No [Selection::intersect], whose result is not symmetric. *)
Fixpoint no_intersect {T} (p : prog T) : Prop :=
  match p with
  | P_intersect _ _ => False
  | P_extend p _ | P_union_in_place p _ | P_complement p | P_minus_in_place p _ => no_intersect p
  | P_union p q => no_intersect p /\ no_intersect q
  | _ => True
  end.

(** Calls on one tree, first call first. *)
Inductive step (T : Type) : Type :=
| S_union (i : RawInterval T)
| S_minus (i : RawInterval T)
| S_intersect (i : RawInterval T)
| S_complement.
Arguments S_union {T} i.
Arguments S_minus {T} i.
Arguments S_intersect {T} i.
Arguments S_complement {T}.
Definition step_mirror {T U} (f : T -> U) (c : step T) : step U :=
  match c with
  | S_union i => S_union (raw_mirror f i)
  | S_minus i => S_minus (raw_mirror f i)
  | S_intersect i => S_intersect (raw_mirror f i)
  | S_complement => S_complement
  end.
Fixpoint do_steps {T} {C : Cmp T} (dbg : bool) (l : list (step T)) (s : TineTree T) : res (TineTree T) :=
  match l with
  | [] => Ok s
  | c :: l' =>
      do s' <- match c with
               | S_union i => tree_union_in_place dbg s i
               | S_minus i => tree_minus_in_place dbg s i
               | S_intersect i => tree_intersect_in_place dbg s i
               | S_complement => tree_complement dbg s
               end;
      do_steps dbg l' s'
  end.
(** The intervals are well-formed; no intersection with a single point, which
    is computed by iterating over the tree. *)
Definition step_in {T} {C : Cmp T} (c : step T) : Prop :=
  match c with
  | S_union i | S_minus i => raw_wf i
  | S_intersect i => raw_wf i /\ forall x, i <> Point x
  | S_complement => True
  end.

(** Calls on one Selection ([call] of Spec_History.v). *)
Definition call_mirror {T U} (f : T -> U) (c : call T) : call U :=
  match c with
  | C_union_in_place i => C_union_in_place (interval_mirror f i)
  | C_extend l => C_extend (map (interval_mirror f) l)
  | C_union q => C_union (prog_mirror f q)
  | C_complement => C_complement
  | C_minus_in_place i => C_minus_in_place (interval_mirror f i)
  | C_minus q => C_minus (prog_mirror f q)
  | C_intersect_in_place i => C_intersect_in_place (interval_mirror f i)
  end.
(** Every argument is an interval of the public API. *)
Definition interval_call {T} {C : Cmp T} {F : FiniteOps T} (c : call T) : Prop :=
  match c with
  | C_union_in_place i | C_minus_in_place i | C_intersect_in_place i => reach false i
  | C_extend l => Forall (reach false) l
  | C_complement => True
  | C_union _ | C_minus _ => False
  end.

(** [std::cmp::Reverse]: every type has a reversal. *)
Record Reverse (T : Type) : Type := reverse { reversed : T }.
Arguments reverse {T} _.
Arguments reversed {T} _.
Definition Reverse_Cmp {T} {C : Cmp T} : Cmp (Reverse T) :=
  {| cmp x y := cmp (reversed y) (reversed x) |}.
Definition Reverse_FiniteOps {T} {F : FiniteOps T} : FiniteOps (Reverse T) :=
  {| MINIMUM := reverse MAXIMUM; MAXIMUM := reverse MINIMUM;
     pred x := option_map reverse (succ (reversed x));
     succ x := option_map reverse (pred (reversed x)) |}.
#[global] Hint Extern 0 (Cmp (Reverse _)) => eapply Reverse_Cmp : typeclass_instances.
#[global] Hint Extern 0 (FiniteOps (Reverse _)) => eapply Reverse_FiniteOps : typeclass_instances.
