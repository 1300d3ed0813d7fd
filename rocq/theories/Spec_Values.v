(** * Specification vocabulary: the values written in a data structure *)
From Coq Require Import List.
From Verif Require Import Base MBound MRaw MTine MTineTree.
Import ListNotations.

Section Values.
  Context {T : Type}.

  Definition bound_values (b : Bound T) : list T :=
    match b with Include x | Exclude x => [x] | Infinite => [] end.

  Definition raw_values (i : RawInterval T) : list T :=
    match i with
    | Empty | Full => []
    | Point p | UpTo p | UpFrom p | To p | From p => [p]
    | Open l r | LeftOpen l r | RightOpen l r | Closed l r => [l; r]
    end.

  Definition tine_values (t : Tine T) : list T :=
    match t with TLower b | TPoint b | TUpper b => bound_values b end.

  Definition tree_values (s : TineTree T) : list T := flat_map tine_values s.

  Definition option_values {A} (f : A -> list T) (o : option A) : list T :=
    match o with Some a => f a | None => [] end.

  (** Nothing to say about a panic. *)
  Definition res_values {A} (f : A -> list T) (r : res A) : list T :=
    match r with Ok a => f a | Panic => [] end.
End Values.
