(** * What [interval_iter] makes of any list of tines (C115)

    A Selection that was read need not be one the API makes: its tines may come in any sequence.  [takes]
    says what one call of [next] takes off such a sequence, from the front.  [strict] is for a build with debug assertions.
    Cites no code.  [raw_new] is [RawInterval::new] of MRaw.v: the interval with the two bounds. *)
From Coq Require Import List.
From Verif Require Import Base MBound MRaw MTine.
Import ListNotations.

Section Take.
  Context {T : Type} {C : Cmp T}.

  Definition bound_of (t : Tine T) : Bound T := match t with TLower b | TPoint b | TUpper b => b end.
  Definition lone (t : Tine T) : Prop := exists p, t = TPoint (Include p).
  Definition hole (t : Tine T) : Prop := exists x, t = TPoint (Exclude x).
  Definition opens (t : Tine T) : Prop := (exists b, t = TLower b) \/ hole t.
  Definition closes (t : Tine T) : Prop := (exists b, t = TUpper b) \/ hole t.

  (** A single value is taken alone.  Any other tine is taken with the one that follows it, as the two
      ends of an interval; if that one stands for a missing value, it stays as the lower end of the next. *)
  Inductive takes (strict : bool) : list (Tine T) -> RawInterval T -> list (Tine T) -> Prop :=
  | takes_value p s : takes strict (TPoint (Include p) :: s) (Point p) s
  | takes_interval o t s : ~ lone o -> ~ hole t -> (strict = true -> opens o /\ closes t) ->
      takes strict (o :: t :: s) (raw_new (bound_of o) (bound_of t)) s
  | takes_hole o x s : ~ lone o -> (strict = true -> opens o) ->
      takes strict (o :: TPoint (Exclude x) :: s) (raw_new (bound_of o) (Exclude x)) (TPoint (Exclude x) :: s).

  (** Any number of calls. *)
  Inductive took (strict : bool) : list (Tine T) -> list (RawInterval T) -> list (Tine T) -> Prop :=
  | took_none s : took strict s [] s
  | took_more s r s' l s'' : takes strict s r s' -> took strict s' l s'' -> took strict s (r :: l) s''.
End Take.
