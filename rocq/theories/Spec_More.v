(** * Specification vocabulary for bounds, accessors and classification *)
From Coq Require Import List Bool.
From Verif Require Import Base MBound MRaw MNormalize MInterval Spec.
Import ListNotations.

Section SpecMore.
  Context {T : Type} {O : Ord T}.

  (** [p] is the greatest lower (least upper) bound of the set [P]. *)
  Definition is_infimum (P : T -> Prop) (p : T) : Prop :=
    (forall x, P x -> le p x) /\ forall q, (forall x, P x -> le q x) -> le q p.
  Definition is_supremum (P : T -> Prop) (p : T) : Prop :=
    (forall x, P x -> le x p) /\ forall q, (forall x, P x -> le x q) -> le p q.

  (** [P] has a lower (upper) bound. *)
  Definition bounded_below (P : T -> Prop) : Prop := exists q, forall x, P x -> le q x.
  Definition bounded_above (P : T -> Prop) : Prop := exists q, forall x, P x -> le x q.

  (** An interval that includes each end it has. *)
  Definition closed_ends (i : RawInterval T) : Prop :=
    (forall p, raw_lower_bound i <> Some (Exclude p)) /\ (forall p, raw_upper_bound i <> Some (Exclude p)).

  (** No value between two members is missing. *)
  Definition convex (P : T -> Prop) : Prop := forall x y z, P x -> P z -> le x y -> le y z -> P y.

  (** [P] has exactly one member; two different members. *)
  Definition exactly_one (P : T -> Prop) : Prop := exists x, P x /\ forall y, P y -> y = x.
  Definition two_members (P : T -> Prop) : Prop := exists x y, P x /\ P y /\ x <> y.
End SpecMore.

(** The walk of two sorted lists of intervals that [intersect] makes: a pair
    that meets is kept and the right interval dropped; at a pair that does not
    meet both are dropped.  (A correct merge would drop only the one that ends
    first.) *)
Section Walk.
  Context {T : Type} {O : Ord T}.
  Fixpoint walked (A B : list (RawInterval T)) : list (RawInterval T) :=
    match B, A with
    | j :: B', i :: A' =>
        if raw_is_empty (raw_intersect i j) then walked A' B' else raw_intersect i j :: walked A B'
    | _, _ => []
    end.
End Walk.
