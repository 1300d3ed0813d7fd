(** * Specification vocabulary for exact domains of correctness *)
From Coq Require Import List Bool.
From Verif Require Import Base MBound MRaw MNormalize MInterval Spec Spec_Sel.
Import ListNotations.

Section SpecDomain.
  Context {T : Type} {O : Ord T} {F : Finite T}.
  Implicit Types (P : T -> Prop) (m : T) (i : Interval T).

  (** [P] holds of [m] or of the value before (after) it. *)
  Definition at_or_before P m : Prop := P m \/ exists a, pred m = Some a /\ P a.
  Definition at_or_after P m : Prop := P m \/ exists b, succ m = Some b /\ P b.
  (** [P] holds of one of the two values before (after) [m]. *)
  Definition two_before P m : Prop := exists a, pred m = Some a /\ at_or_before P a.
  Definition two_after P m : Prop := exists b, succ m = Some b /\ at_or_after P b.

  (** Where [intersect_in_place] with the interval [i] is right on a Selection
      of the values [P]. *)
  Definition sel_intersect_domain P i : Prop :=
    (forall x, ~ P x) \/ (forall x, ~ ipoints i x) \/ (forall x, ipoints i x) \/
    exists l u, least (ipoints i) l /\ greatest (ipoints i) u /\
      ((at_or_before P l /\ at_or_after P u) \/
       (two_before P l /\ at_or_before P l /\ ~ at_or_after P u /\ ~ two_after P u) \/
       (~ two_before P l /\ ~ at_or_before P l /\ at_or_after P u /\ two_after P u)).
End SpecDomain.

(** The pairs of intervals [intersect] looks at and keeps: it walks both lists
    in step; at a pair that meets only the right interval is dropped, at a pair
    that does not meet both are. *)
Inductive visited {I : Type} (meet : I -> I -> Prop) : list I -> list I -> I -> I -> Prop :=
| visited_here i A j B : meet i j -> visited meet (i :: A) (j :: B) i j
| visited_right i A j B x y : meet i j -> visited meet (i :: A) B x y -> visited meet (i :: A) (j :: B) x y
| visited_both i A j B x y : ~ meet i j -> visited meet A B x y -> visited meet (i :: A) (j :: B) x y.

(** Each interval of [B] meets at most one of [A]; and if it meets the [k]-th
    (from 0) then just [k] intervals before it in [B] meet none of [A]. *)
Definition in_step {T} {O : Ord T} (A B : list (RawInterval T)) : Prop :=
  forall A1 i A2 B1 j B2, A = A1 ++ i :: A2 -> B = B1 ++ j :: B2 -> raw_intersects i j = true ->
    (forall i', In i' A -> raw_intersects i' j = true -> i' = i) /\
    length A1 = length (filter (fun j' => forallb (fun i' => negb (raw_intersects i' j')) A) B1).

(** Two intervals have equal or neighbouring values. *)
Definition touching {T} {O : Ord T} {F : Finite T} (i j : Interval T) : Prop :=
  exists x y, ipoints i x /\ ipoints j y /\ (x = y \/ succ x = Some y \/ succ y = Some x).

(** Going by the two bounds alone, there is room for a value above [l] and below
    [u]. *)
Definition room {T} {O : Ord T} (l u : Bound T) : Prop :=
  match l, u with
  | Infinite, _ | _, Infinite => True
  | Include a, Include b => le a b
  | Include a, Exclude b | Exclude a, Include b | Exclude a, Exclude b => lt a b
  end.
