(** * The derived [PartialEq] and [Hash] impls

    [#[derive(Hash)]] at src/bound.rs 32, src/tine.rs 33, src/raw_interval.rs 32,
    src/interval.rs 47, src/tine_tree.rs 47 and src/selection.rs 36.  What an
    impl of [Hash] does is a sequence of writes to the [Hasher]: an enum writes
    the index of its variant and then its fields, a struct its fields, a
    [BTreeSet] its length and then its elements in order.  The value of
    [Hasher::finish] is some function of the sequence.  Simplification: indices
    and lengths are natural numbers instead of the bytes of an [isize]/[usize],
    and what [T: Hash] writes is a list of arbitrary tokens [W]. *)
From Coq Require Import List Bool.
From Verif Require Import Base MBound MRaw MTine MTineTree MInterval MSelection.
Import ListNotations.

(** What one call on the [Hasher] writes, for the derives listed above. *)
Inductive write (W : Type) : Type :=
| WVariant (n : nat)   (* mem::discriminant(self).hash(state) *)
| WLen (n : nat)       (* state.write_length_prefix(len) *)
| WVal (w : W).        (* a write of T's own impl *)
Arguments WVariant {W} n.
Arguments WLen {W} n.
Arguments WVal {W} w.

(** [T: Hash]: what a value writes (the bound the derives at src/bound.rs 32 etc.
    put on [T]). *)
Class HashOps (T W : Type) : Type := { feed : T -> list W }.

Section Hash.
  Context {T W : Type} {O : Cmp T} {H : HashOps T W}.

  (** A field of type [T] (src/bound.rs 36-38, src/raw_interval.rs 36-60). *)
  Definition val_hash (x : T) : list (write W) := map WVal (feed x).

  (** src/bound.rs 32-41. *)
  Definition bound_hash (b : Bound T) : list (write W) :=
    match b with
    | Include x => WVariant 0 :: val_hash x
    | Exclude x => WVariant 1 :: val_hash x
    | Infinite => [WVariant 2]
    end.

  (** src/tine.rs 33-42. *)
  Definition tine_hash (t : Tine T) : list (write W) :=
    match t with
    | TLower b => WVariant 0 :: bound_hash b
    | TPoint b => WVariant 1 :: bound_hash b
    | TUpper b => WVariant 2 :: bound_hash b
    end.

  (** src/raw_interval.rs 32-61. *)
  Definition raw_hash (i : RawInterval T) : list (write W) :=
    match i with
    | Empty => [WVariant 0]
    | Point p => WVariant 1 :: val_hash p
    | Open l r => WVariant 2 :: val_hash l ++ val_hash r
    | LeftOpen l r => WVariant 3 :: val_hash l ++ val_hash r
    | RightOpen l r => WVariant 4 :: val_hash l ++ val_hash r
    | Closed l r => WVariant 5 :: val_hash l ++ val_hash r
    | UpTo p => WVariant 6 :: val_hash p
    | UpFrom p => WVariant 7 :: val_hash p
    | To p => WVariant 8 :: val_hash p
    | From p => WVariant 9 :: val_hash p
    | Full => [WVariant 10]
    end.

  (** The derived [PartialEq], src/raw_interval.rs 32. *)
  Definition raw_eqb (i j : RawInterval T) : bool :=
    match i, j with
    | Empty, Empty | Full, Full => true
    | Point p, Point q | UpTo p, UpTo q | UpFrom p, UpFrom q | To p, To q | From p, From q => eqb p q
    | Open l r, Open l' r' | LeftOpen l r, LeftOpen l' r' | RightOpen l r, RightOpen l' r' | Closed l r, Closed l' r' =>
        eqb l l' && eqb r r'
    | _, _ => false
    end.

  (** src/interval.rs 47-50: the field's. *)
  Definition interval_hash (i : Interval T) : list (write W) := raw_hash (interval_raw i).
  Definition interval_eqb (i j : Interval T) : bool := raw_eqb (interval_raw i) (interval_raw j).

  (** src/tine_tree.rs 47-52; std's [Hash for BTreeSet].  Older releases of std
      do not write the length. *)
  Definition tree_hash (s : TineTree T) : list (write W) := WLen (length s) :: flat_map tine_hash s.

  (** src/selection.rs 36-42: the field's. *)
  Definition sel_hash (s : Selection T) : list (write W) := tree_hash s.
End Hash.
