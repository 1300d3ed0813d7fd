(** * What the interval iterator makes of any list of tines, called from both ends (C115)

    Continues Spec_Take.v, which says what a [next] takes off a sequence.  Here calls of [next] and [next_back] come in any
    order.  Cites no code. *)
From Coq Require Import List.
From Verif Require Import Base MBound MRaw MTine Spec Spec_Take.
Import ListNotations.

Section Take2.
  Context {T : Type} {C : Cmp T}.

  (** Between calls: a missing value kept as the lower end of an interval to come, and the tines left. *)
  Definition stock : Type := option T * list (Tine T).
  Definition from_front (k : stock) : list (Tine T) :=
    match fst k with Some x => TPoint (Exclude x) :: snd k | None => snd k end.

  Inductive side_takes (strict : bool) : side -> stock -> RawInterval T -> stock -> Prop :=
  | front_value p s : side_takes strict Front (None, TPoint (Include p) :: s) (Point p) (None, s)
  | front_interval k o t s : from_front k = o :: t :: s -> ~ lone o -> ~ hole t -> (strict = true -> opens o /\ closes t) ->
      side_takes strict Front k (raw_new (bound_of o) (bound_of t)) (None, s)
  | front_hole k o x s : from_front k = o :: TPoint (Exclude x) :: s -> ~ lone o -> (strict = true -> opens o) ->
      side_takes strict Front k (raw_new (bound_of o) (Exclude x)) (Some x, s)
  | back_value h p s : side_takes strict Back (h, s ++ [TPoint (Include p)]) (Point p) (h, s)
  | back_interval h s t u : ~ lone u -> ~ hole t -> (strict = true -> opens t /\ closes u) ->
      side_takes strict Back (h, s ++ [t; u]) (raw_new (bound_of t) (bound_of u)) (h, s)
  (** A missing value met from the back is kept too, and replaces the one kept before. *)
  | back_hole h s x u : ~ lone u -> (strict = true -> closes u) ->
      side_takes strict Back (h, s ++ [TPoint (Exclude x); u]) (raw_new (Exclude x) (bound_of u)) (Some x, s)
  (** The last tine is taken with the value that is kept, which stays. *)
  | back_kept x u : ~ lone u -> (strict = true -> closes u) ->
      side_takes strict Back (Some x, [u]) (raw_new (Exclude x) (bound_of u)) (Some x, []).

  (** A call that has nothing to take: from the back a kept value does not count. *)
  Definition nothing_for (c : side) (k : stock) : Prop :=
    match c with Front => from_front k = [] | Back => snd k = [] end.

  (** Any sequence of calls and what they return. *)
  Inductive reads (strict : bool) : stock -> list side -> list (option (RawInterval T)) -> Prop :=
  | reads_end k : reads strict k [] []
  | reads_some c k r k' cs os : side_takes strict c k r k' -> reads strict k' cs os -> reads strict k (c :: cs) (Some r :: os)
  | reads_none c k cs os : nothing_for c k -> reads strict k cs os -> reads strict k (c :: cs) (None :: os).

  (** Somewhere a missing value closes one interval and opens the next. *)
  Definition joined (s : list (Tine T)) : Prop :=
    exists A o x B, s = A ++ o :: TPoint (Exclude x) :: B /\ opens o.
End Take2.
