(** * Specification vocabulary for Selections

    Programs over the Selection API, what they do when run and which set they
    are meant to denote. *)
From Coq Require Import List Bool Sorted.
From Verif Require Import Base MBound MRaw MNormalize MInterval MTineTree MSelection Spec.
Import ListNotations.

Section Programs.
  Context {T : Type} {O : Cmp T} {F : FiniteOps T}.

  (** An expression whose value is a Selection. *)
  Inductive prog : Type :=
  | P_new                                       (* Selection::new() *)
  | P_full                                      (* Selection::full() *)
  | P_from (i : Interval T)                     (* Selection::from(i) *)
  | P_intervals (l : list (Interval T))         (* l.into_iter().collect() *)
  | P_points (l : list T)                       (* l.into_iter().collect() *)
  | P_extend (p : prog) (l : list (Interval T)) (* p.extend(l) *)
  | P_union_in_place (p : prog) (i : Interval T)
  | P_union (p q : prog)
  | P_complement (p : prog)
  | P_intersect (p q : prog)
  | P_minus_in_place (p : prog) (i : Interval T).

  (** Running a program in a debug ([true]) or release build. *)
  Fixpoint run (dbg : bool) (p : prog) : res (Selection T) :=
    match p with
    | P_new => Ok sel_new
    | P_full => Ok sel_full
    | P_from i => Ok (sel_from i)
    | P_intervals l => sel_from_intervals dbg l
    | P_points l => sel_from_points dbg l
    | P_extend p l => do s <- run dbg p; sel_extend dbg s l
    | P_union_in_place p i => do s <- run dbg p; sel_union_in_place dbg s i
    | P_union p q => do s <- run dbg p; do s' <- run dbg q; sel_union dbg s s'
    | P_complement p => do s <- run dbg p; sel_complement dbg s
    | P_intersect p q => do s <- run dbg p; do s' <- run dbg q; sel_intersect dbg s s'
    | P_minus_in_place p i => do s <- run dbg p; sel_minus_in_place dbg s i
    end.
End Programs.
Arguments prog T : clear implicits.

Section SpecSel.
  Context {T : Type} {O : Cmp T} {F : FiniteOps T}.
  Implicit Types (i : Interval T) (x : T) (p : prog T).

  (** The set a program is meant to denote. *)
  Fixpoint means (p : prog T) (x : T) : Prop :=
    match p with
    | P_new => False
    | P_full => True
    | P_from i => ipoints i x
    | P_intervals l => some_icontains l x
    | P_points l => In x l
    | P_extend p l => means p x \/ some_icontains l x
    | P_union_in_place p i => means p x \/ ipoints i x
    | P_union p q => means p x \/ means q x
    | P_complement p => ~ means p x
    | P_intersect p q => means p x /\ means q x
    | P_minus_in_place p i => means p x /\ ~ ipoints i x
    end.

  (** The intervals handed to the program come from the Interval API.  With
      [strict = true] no constructor was given an open pair of neighbours. *)
  Fixpoint inputs (strict : bool) (p : prog T) : Prop :=
    match p with
    | P_new | P_full | P_points _ => True
    | P_from i => reach strict i
    | P_intervals l => Forall (reach strict) l
    | P_extend p l => inputs strict p /\ Forall (reach strict) l
    | P_union_in_place p i | P_minus_in_place p i => inputs strict p /\ reach strict i
    | P_union p q | P_intersect p q => inputs strict p /\ inputs strict q
    | P_complement p => inputs strict p
    end.

  (** No intersection and no difference. *)
  Fixpoint boolean (p : prog T) : Prop :=
    match p with
    | P_intersect _ _ | P_minus_in_place _ _ => False
    | P_extend p _ | P_union_in_place p _ | P_complement p => boolean p
    | P_union p q => boolean p /\ boolean q
    | _ => True
    end.

  (** Unions only: no complement either. *)
  Fixpoint unions_only (p : prog T) : Prop :=
    match p with
    | P_intersect _ _ | P_minus_in_place _ _ | P_complement _ => False
    | P_extend p _ | P_union_in_place p _ => unions_only p
    | P_union p q => unions_only p /\ unions_only q
    | _ => True
    end.

  (** No intersection; complements are taken of [unions_only] programs only. *)
  Fixpoint shallow (p : prog T) : Prop :=
    match p with
    | P_intersect _ _ => False
    | P_complement p => unions_only p
    | P_extend p _ | P_union_in_place p _ | P_minus_in_place p _ => shallow p
    | P_union p q => shallow p /\ shallow q
    | _ => True
    end.

  (** The Selection [s] contains exactly the points of [P]; [contains] does not
      panic. *)
  Definition sel_is (dbg : bool) (s : Selection T) (P : T -> Prop) : Prop :=
    forall x, exists b, sel_contains dbg s x = Ok b /\ (b = true <-> P x).

  (** The Selection answers [true] for [x]. *)
  Definition member (dbg : bool) (s : Selection T) (x : T) : Prop := sel_contains dbg s x = Ok true.

  (** The intervals [interval_iter] yields, first to last. *)
  Definition sel_intervals_are (dbg : bool) (s : Selection T) (l : list (Interval T)) : Prop :=
    drains (sel_interval_next dbg) (sel_interval_iter s) l.

  (** The interval is stored in one of the closed forms and is not empty. *)
  Definition closed_form i : Prop :=
    exists l u, le l u /\ interval_lower_bound i = Some (Include l) /\ interval_upper_bound i = Some (Include u).

  (** [i] lies before [j] with a value outside [P] between them. *)
  Definition apart (P : T -> Prop) i (j : Interval T) : Prop :=
    exists x, ~ P x /\ (forall y, ipoints i y -> lt y x) /\ (forall z, ipoints j z -> lt x z).

  (** The value [x] is missing from [P] although both its neighbours are in. *)
  Definition lone_gap (P : T -> Prop) (x : T) : Prop :=
    ~ P x /\ (exists y, pred x = Some y /\ P y) /\ (exists z, succ x = Some z /\ P z).

  (** The values just below and just above an interval. *)
  Definition just_below i (x : T) : Prop :=
    exists m, least (ipoints i) m /\ pred m = Some x.
  Definition just_above i (x : T) : Prop :=
    exists m, greatest (ipoints i) m /\ succ m = Some x.
End SpecSel.
