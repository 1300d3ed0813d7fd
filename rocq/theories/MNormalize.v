(** * Model of src/normalize.rs (the integer [Finite] impls are in Ints.v) *)
From Verif Require Import Base MBound MRaw.

Section Normalize.
  Context {T : Type} {O : Cmp T} {F : FiniteOps T}.

  (** src/normalize.rs 81-99: [normalize]; also [normalized], 56-59. *)
  Definition normalized (i : RawInterval T) : RawInterval T :=
    match i with
    | Empty => Empty
    | Point p => Point p
    | Open l r =>
        match succ l, pred r with
        | Some l, Some r => Closed l r
        | _, _ => Empty
        end
    | LeftOpen l r => match succ l with Some l => Closed l r | None => Empty end
    | RightOpen l r => match pred r with Some r => Closed l r | None => Empty end
    | Closed l r => Closed l r
    | UpTo r => match pred r with Some r => Closed MINIMUM r | None => Empty end
    | UpFrom l => match succ l with Some l => Closed l MAXIMUM | None => Empty end
    | To p => Closed MINIMUM p
    | From p => Closed p MAXIMUM
    | Full => Closed MINIMUM MAXIMUM
    end.

  (** src/normalize.rs 101-132: [denormalize]; also [denormalized], 63-66. *)
  Definition denormalized (i : RawInterval T) : RawInterval T :=
    match i with
    | Empty => Empty
    | Point p =>
        match pred p, succ p with
        | Some l, Some r => Open l r
        | Some l, None => UpFrom l
        | None, Some r => UpTo r
        | None, None => Full
        end
    | Open l r => Open l r
    | LeftOpen l r => match succ r with Some r => Open l r | None => UpFrom l end
    | RightOpen l r => match pred l with Some l => Open l r | None => UpTo r end
    | Closed l r =>
        match pred l, succ r with
        | Some l, Some r => Open l r
        | Some l, None => UpFrom l
        | None, Some r => UpTo r
        | None, None => Full
        end
    | UpTo r => UpTo r
    | UpFrom l => UpFrom l
    | To p => match pred p with Some r => UpTo r | None => Empty end
    | From p => match succ p with Some l => UpFrom l | None => Empty end
    | Full => Full
    end.
End Normalize.
