(** * Operations with one interval after the other (C115)

    Cites no code. *)
From Coq Require Import List.
From Verif Require Import Base MRaw.
Import ListNotations.

(** [one_by_one f s l s']: [f] with each interval of [l] in turn, without a panic, leads from [s] to [s']. *)
Inductive one_by_one {T A} (f : A -> RawInterval T -> res A) : A -> list (RawInterval T) -> A -> Prop :=
| one_end s : one_by_one f s [] s
| one_more s i s' l s'' : f s i = Ok s' -> one_by_one f s' l s'' -> one_by_one f s (i :: l) s''.
