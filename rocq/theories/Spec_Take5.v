(** * What [complement] makes of any ordered sequence of tines (C115)

    Continues Spec_Take.v.  Cites no code; [tine_cmp] is the order of the set that holds the tines. *)
From Coq Require Import List Sorted.
From Verif Require Import Base MBound MRaw MTine Spec_Take.
Import ListNotations.

Section Turn.
  Context {T : Type} {C : Cmp T}.
  Implicit Types s : list (Tine T).

  (** What a set of tines can hold: the tines ascend.  ([Point(Infinite)] cannot be compared.) *)
  Definition in_order s : Prop := StronglySorted (fun a b => tine_cmp a b = Lt) s /\ ~ In (TPoint Infinite) s.

  (** The same end seen from the other side. *)
  Definition other_side (t : Tine T) : Tine T :=
    match t with
    | TLower (Include x) => TUpper (Exclude x)
    | TLower (Exclude x) => TUpper (Include x)
    | TUpper (Include x) => TLower (Exclude x)
    | TUpper (Exclude x) => TLower (Include x)
    | TPoint (Include x) => TPoint (Exclude x)
    | TPoint (Exclude x) => TPoint (Include x)
    | _ => t
    end.

  (** The infinite ends are removed where they are and added where they are not. *)
  Definition swap_first s : list (Tine T) := match s with TLower Infinite :: s' => s' | _ => TLower Infinite :: s end.
  Definition swap_last s : list (Tine T) := match rev s with TUpper Infinite :: s' => rev s' | _ => s ++ [TUpper Infinite] end.
  Definition turned s : list (Tine T) := map other_side (swap_first (swap_last s)).

  (** One tine only, and that an infinite one or, in a debug build, one that is not a single value. *)
  Definition stuck (strict : bool) s : Prop := exists t, s = [t] /\ (bound_of t = Infinite \/ strict = true /\ ~ lone t).
End Turn.
