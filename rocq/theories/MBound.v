(** * Model of src/bound.rs *)
From Coq Require Import Bool.
From Verif Require Import Base.

(** src/bound.rs 34-41: [enum Bound<T>]. *)
Inductive Bound (T : Type) : Type :=
| Include (x : T)
| Exclude (x : T)
| Infinite.
Arguments Include {T} x.
Arguments Exclude {T} x.
Arguments Infinite {T}.

Section Bound.
  Context {T : Type}.
  Implicit Types b : Bound T.

  (** src/bound.rs 69-71: [is_finite]. *)
  Definition is_finite b : bool :=
    match b with Infinite => false | _ => true end.

  (** src/bound.rs 94-96: [is_inclusive]. *)
  Definition is_inclusive b : bool :=
    match b with Include _ => true | _ => false end.

  (** src/bound.rs 119-121: [is_exclusive]. *)
  Definition is_exclusive b : bool :=
    match b with Exclude _ => true | _ => false end.

  (** src/bound.rs 146-152: [as_ref] (references are values here). *)
  Definition bound_as_ref b : option T :=
    match b with Include x | Exclude x => Some x | Infinite => None end.

  (** src/bound.rs 175-181: [as_mut], as the update of the referenced value
      when it is written through. *)
  Definition bound_as_mut_set b (v : T) : Bound T :=
    match b with Include _ => Include v | Exclude _ => Exclude v | Infinite => Infinite end.

  (** src/bound.rs 229-236: [unwrap], panicking on [Infinite]. *)
  Definition bound_unwrap b : res T :=
    match b with Include x | Exclude x => Ok x | Infinite => Panic end.

  (** src/bound.rs 254-260: [unwrap_or]. *)
  Definition bound_unwrap_or b (def : T) : T :=
    match b with Include x | Exclude x => x | Infinite => def end.

  (** src/bound.rs 279-285: [unwrap_or_else] (the closure is a thunk). *)
  Definition bound_unwrap_or_else b (f : unit -> T) : T :=
    match b with Include x | Exclude x => x | Infinite => f tt end.

  (** src/bound.rs 309-315: [map]. *)
  Definition bound_map {U} b (f : T -> U) : Bound U :=
    match b with Include x => Include (f x) | Exclude x => Exclude (f x) | Infinite => Infinite end.

  (** src/bound.rs 335-341: [map_or]. *)
  Definition bound_map_or {U} b (def : U) (f : T -> U) : U :=
    match b with Include x | Exclude x => f x | Infinite => def end.

  (** src/bound.rs 362-372: [map_or_else]. *)
  Definition bound_map_or_else {U} b (def : unit -> U) (f : T -> U) : U :=
    match b with Include x | Exclude x => f x | Infinite => def tt end.

  (** src/bound.rs 394-400: [transfer]. *)
  Definition bound_transfer {U} b (to : U) : Bound U :=
    match b with Include _ => Include to | Exclude _ => Exclude to | Infinite => Infinite end.

  (** src/bound.rs 529-533: [From<T>]. *)
  Definition bound_from (x : T) : Bound T := Include x.

  Context {O : Cmp T}.

  (** src/bound.rs 407-412: [is_union_adjacent_to]. *)
  Definition is_union_adjacent_to b (o : Bound T) : bool :=
    match b, o with
    | Include p, Include q
    | Include p, Exclude q
    | Exclude p, Include q => eqb p q
    | _, _ => false
    end.

  (** src/bound.rs 422-438: [least_union]. *)
  Definition least_union b (o : Bound T) : Bound T :=
    match b, o with
    | Include p, Include q => if ltb p q then Include p else Include q
    | Include p, Exclude q => if leb p q then Include p else Exclude q
    | Exclude p, Include q => if ltb p q then Exclude p else Include q
    | Exclude p, Exclude q => if ltb p q then Exclude p else Exclude q
    | _, _ => Infinite
    end.

  (** src/bound.rs 443-467: [least_intersect]. *)
  Definition least_intersect b (o : Bound T) : Bound T :=
    match b, o with
    | Include p, Include q => if ltb p q then Include p else Include q
    | Include p, Exclude q => if ltb p q then Include p else Exclude q
    | Exclude p, Include q => if leb p q then Exclude p else Include q
    | Exclude p, Exclude q => if ltb p q then Exclude p else Exclude q
    | Include p, Infinite => Include p
    | Exclude p, Infinite => Exclude p
    | Infinite, Include q => Include q
    | Infinite, Exclude q => Exclude q
    | _, _ => Infinite
    end.

  (** src/bound.rs 472-488: [greatest_union]. *)
  Definition greatest_union b (o : Bound T) : Bound T :=
    match b, o with
    | Include p, Include q => if gtb p q then Include p else Include q
    | Include p, Exclude q => if geb p q then Include p else Exclude q
    | Exclude p, Include q => if gtb p q then Exclude p else Include q
    | Exclude p, Exclude q => if gtb p q then Exclude p else Exclude q
    | _, _ => Infinite
    end.

  (** src/bound.rs 493-517: [greatest_intersect]. *)
  Definition greatest_intersect b (o : Bound T) : Bound T :=
    match b, o with
    | Include p, Include q => if gtb p q then Include p else Include q
    | Include p, Exclude q => if gtb p q then Include p else Exclude q
    | Exclude p, Include q => if geb p q then Exclude p else Include q
    | Exclude p, Exclude q => if gtb p q then Exclude p else Exclude q
    | Include p, Infinite => Include p
    | Exclude p, Infinite => Exclude p
    | Infinite, Include q => Include q
    | Infinite, Exclude q => Exclude q
    | _, _ => Infinite
    end.
End Bound.

(** src/bound.rs 521-526: [Default] ([Include(T::default())]). *)
Definition bound_default {T} (default : T) : Bound T := Include default.
