(** * How [intersect] walks two lists of tines, whatever they are (C115)

    Continues Spec_Take.v.  Cites no code. *)
From Coq Require Import List.
From Verif Require Import Base MBound MRaw MTine Spec_Take.
Import ListNotations.

Section Walk.
  Context {T : Type} {C : Cmp T}.

  (** Intervals are taken from both lists.  The first of the left list is compared with those of the right one, and what they have in
      common is kept, up to one with which it has nothing in common; then both are dropped.  The walk ends when a list is used up.
      (A correct walk would drop only the one that ends first.) *)
  Inductive walk (strict : bool) : list (Tine T) -> list (Tine T) -> list (RawInterval T) -> Prop :=
  | walk_end b : walk strict [] b []
  | walk_next a i a' b K : takes strict a i a' -> walk_with strict i a' b K -> walk strict a b K
  with walk_with (strict : bool) : RawInterval T -> list (Tine T) -> list (Tine T) -> list (RawInterval T) -> Prop :=
  | with_end i a : walk_with strict i a [] []
  | with_apart i a b j b' K : takes strict b j b' -> raw_intersect i j = Empty -> walk strict a b' K -> walk_with strict i a b K
  | with_meet i a b j b' K : takes strict b j b' -> raw_intersect i j <> Empty -> walk_with strict i a b' K ->
      walk_with strict i a b (raw_intersect i j :: K).
End Walk.
