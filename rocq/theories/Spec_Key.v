(** * Specification vocabulary for types ordered by a key

    [T] compares its values through a key: [cmp x y = cmp (f x) (f y)].  Values
    with the same key are [==] although they may differ.  The functions below
    replace every value in a data structure by its key. *)
From Coq Require Import List Bool.
From Verif Require Import Base MBound MRaw MNormalize MInterval MTine MTineTree MSelection Spec Spec_Sel.
Import ListNotations.

Section Key.
  Context {T U : Type} (f : T -> U).

  Definition res_key {A B} (g : A -> B) (r : res A) : res B :=
    match r with Ok a => Ok (g a) | Panic => Panic end.

  Definition bound_key (b : Bound T) : Bound U :=
    match b with Include x => Include (f x) | Exclude x => Exclude (f x) | Infinite => Infinite end.

  Definition raw_key (i : RawInterval T) : RawInterval U :=
    match i with
    | Empty => Empty
    | Point p => Point (f p)
    | Open l r => Open (f l) (f r)
    | LeftOpen l r => LeftOpen (f l) (f r)
    | RightOpen l r => RightOpen (f l) (f r)
    | Closed l r => Closed (f l) (f r)
    | UpTo p => UpTo (f p)
    | UpFrom p => UpFrom (f p)
    | To p => To (f p)
    | From p => From (f p)
    | Full => Full
    end.

  Definition tine_key (t : Tine T) : Tine U :=
    match t with TLower b => TLower (bound_key b) | TPoint b => TPoint (bound_key b) | TUpper b => TUpper (bound_key b) end.

  Definition tree_key (s : TineTree T) : TineTree U := map tine_key s.

  Definition iter_key (it : Iter T) : Iter U :=
    {| tine_iter := map tine_key (tine_iter it);
       saved_lower := option_map tine_key (saved_lower it);
       saved_upper := option_map tine_key (saved_upper it) |}.

  Definition interval_key (i : Interval T) : Interval U := mkInterval (raw_key (interval_raw i)).

  Definition sel_iter_key (it : SelIter T) : SelIter U :=
    {| si_intervals := iter_key (si_intervals it); si_current := interval_key (si_current it) |}.

  Definition pair_key {A A' B B'} (g : A -> A') (h : B -> B') (p : A * B) : A' * B' := (g (fst p), h (snd p)).

  (** The program with every value it is given replaced by its key. *)
  Fixpoint prog_key (p : prog T) : prog U :=
    match p with
    | P_new => P_new
    | P_full => P_full
    | P_from i => P_from (interval_key i)
    | P_intervals l => P_intervals (map interval_key l)
    | P_points l => P_points (map f l)
    | P_extend p l => P_extend (prog_key p) (map interval_key l)
    | P_union_in_place p i => P_union_in_place (prog_key p) (interval_key i)
    | P_union p q => P_union (prog_key p) (prog_key q)
    | P_complement p => P_complement (prog_key p)
    | P_intersect p q => P_intersect (prog_key p) (prog_key q)
    | P_minus_in_place p i => P_minus_in_place (prog_key p) (interval_key i)
    end.
End Key.

(** The set a program is meant to denote ([means] of Spec_Sel.v) when [==] does
    not imply identity: a collected point brings every value equal to it. *)
Fixpoint means_eq {T} {C : Cmp T} {F : FiniteOps T} (p : prog T) (x : T) : Prop :=
  match p with
  | P_new => False
  | P_full => True
  | P_from i => ipoints i x
  | P_intervals l => some_icontains l x
  | P_points l => exists y, In y l /\ eqb x y = true
  | P_extend p l => means_eq p x \/ some_icontains l x
  | P_union_in_place p i => means_eq p x \/ ipoints i x
  | P_union p q => means_eq p x \/ means_eq q x
  | P_complement p => ~ means_eq p x
  | P_intersect p q => means_eq p x /\ means_eq q x
  | P_minus_in_place p i => means_eq p x /\ ~ ipoints i x
  end.

(** [T]'s [cmp] is that of the keys. *)
Definition ordered_by {T U} {CT : Cmp T} {CU : Cmp U} (f : T -> U) : Prop :=
  forall x y : T, cmp x y = cmp (f x) (f y).

(** [T]'s [Finite] is that of the keys. *)
Definition finite_by {T U} {FT : FiniteOps T} {FU : FiniteOps U} (f : T -> U) : Prop :=
  f MINIMUM = MINIMUM /\ f MAXIMUM = MAXIMUM /\
  (forall x, option_map f (pred x) = pred (f x)) /\
  (forall x, option_map f (succ x) = succ (f x)).
