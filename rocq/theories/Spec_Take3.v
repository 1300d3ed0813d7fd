(** * The values [iter] makes of any list of tines (C115)

    Continues Spec_Take.v and Spec_Take2.v, which say what a call of [next] or [next_back] of the
    interval iterator takes off a sequence of tines.  Cites no code. *)
From Coq Require Import List Sorted.
From Verif Require Import Base MBound MRaw MNormalize MTine MInterval Spec Spec_Take Spec_Take2.
Import ListNotations.

Section Take3.
  Context {T : Type} {C : Cmp T} {F : FiniteOps T}.

  (** The values an interval is read as, from the front and from the back: those it contains, in order.
      A pair of neighbours (x, y) contains none, but is read as one of its ends. *)
  Inductive read_as : side -> RawInterval T -> list T -> Prop :=
  | read_values r l : ~ gap r -> lists l (fun x => raw_contains r x = true) -> read_as Front r l
  | read_values_back r l : ~ gap r -> lists (rev l) (fun x => raw_contains r x = true) -> read_as Back r l
  | read_gap x y : gap (Open x y) -> read_as Front (Open x y) [y]
  | read_gap_back x y : gap (Open x y) -> read_as Back (Open x y) [x].

  (** The intervals are taken one after the other from one side, and reading ends with the first that is read as nothing. *)
  Inductive yields (strict : bool) (c : side) : stock (T := T) -> list T -> Prop :=
  | yields_end k : nothing_for c k -> yields strict c k []
  | yields_stop k r k' : side_takes strict c k r k' -> read_as c r [] -> yields strict c k []
  | yields_more k r k' v vs l : side_takes strict c k r k' -> read_as c r (v :: vs) -> yields strict c k' l -> yields strict c k (v :: vs ++ l).

  (** The values given before a call panics: tines are left from which no interval can be taken. *)
  Inductive breaks (strict : bool) (c : side) : stock (T := T) -> list T -> Prop :=
  | breaks_now k : ~ nothing_for c k -> (forall r k', ~ side_takes strict c k r k') -> breaks strict c k []
  | breaks_later k r k' v vs l : side_takes strict c k r k' -> read_as c r (v :: vs) -> breaks strict c k' l -> breaks strict c k (v :: vs ++ l).
End Take3.

(** [panics_after next it l]: calling [next] repeatedly gives the items of [l] and then panics. *)
Inductive panics_after {S A} (next : S -> res (option A * S)) : S -> list A -> Prop :=
| panics_now it : next it = Panic -> panics_after next it []
| panics_later it it' a l : next it = Ok (Some a, it') -> panics_after next it' l -> panics_after next it (a :: l).
