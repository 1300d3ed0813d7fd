(** * Model of the part of std::collections::BTreeSet the crate uses

    A [BTreeSet<Tine<T>>] is the list of its elements in ascending order of
    [Tine::cmp].  The operations are those of the standard library, written
    for any comparison; each says what std documents (or, for [collect], what
    its implementation does). *)
From Coq Require Import List Bool.
From Verif Require Import Base MBound MRaw MTine.
Import ListNotations.

Section BTree.
  Context {T : Type} {O : Cmp T}.
  Notation set := (list (Tine T)).

  (** [BTreeSet::insert], called in src/tine_tree.rs 147-173, 382-399, 471-482,
      530-599 and 667-793: an element comparing [Equal] to one already present
      is not inserted and does not replace it. *)
  Fixpoint btree_insert (t : Tine T) (s : set) : set :=
    match s with
    | [] => [t]
    | x :: s' =>
        match tine_cmp t x with
        | Lt => t :: x :: s'
        | Eq => x :: s'
        | Gt => x :: btree_insert t s'
        end
    end.

  (** [BTreeSet::take], called in src/tine_tree.rs 831-832, 877, 911-912: removes
      and returns the element comparing [Equal]. *)
  Fixpoint btree_take (t : Tine T) (s : set) : option (Tine T) * set :=
    match s with
    | [] => (None, [])
    | x :: s' =>
        match tine_cmp t x with
        | Lt => (None, x :: s')
        | Eq => (Some x, s')
        | Gt => let (r, s'') := btree_take t s' in (r, x :: s'')
        end
    end.

  (** [BTreeSet::split_off], called in src/tine_tree.rs 835-836, 880, 915, 921: (what stays,
      what is returned); returned are the
      elements greater than or equal to the key. *)
  Fixpoint btree_split_off (t : Tine T) (s : set) : set * set :=
    match s with
    | [] => ([], [])
    | x :: s' =>
        match tine_cmp t x with
        | Gt => let (a, b) := btree_split_off t s' in (x :: a, b)
        | _ => ([], x :: s')
        end
    end.

  (** [BTreeSet::append], called in src/tine_tree.rs 884, 927: ordered merge; of two elements comparing [Equal] the
      one of the argument is kept. *)
  Fixpoint btree_append (a : set) : set -> set :=
    fix append_a (b : set) : set :=
      match a, b with
      | [], _ => b
      | _, [] => a
      | x :: a', y :: b' =>
          match tine_cmp x y with
          | Lt => x :: btree_append a' b
          | Eq => y :: btree_append a' b'
          | Gt => y :: append_a b'
          end
      end.

  (** [collect::<BTreeSet<_>>()], called in src/tine_tree.rs 68: stable sort, then drop an element equal
      ([==], not merely [cmp]) to its successor.  That is the implementation
      of BTreeSet::from_iter (bulk_build_from_sorted_iter with
      DedupSortedIter). *)
  Fixpoint sort_insert (t : Tine T) (s : set) : set :=
    match s with
    | [] => [t]
    | x :: s' =>
        match tine_cmp t x with
        | Gt => x :: sort_insert t s'
        | _ => t :: x :: s'
        end
    end.
  (** The same call, 68: the sort. *)
  Fixpoint stable_sort (l : list (Tine T)) : set :=
    match l with [] => [] | x :: l' => sort_insert x (stable_sort l') end.
  (** 68: dropping duplicates. *)
  Fixpoint dedup (l : list (Tine T)) : set :=
    match l with
    | [] => []
    | x :: l' =>
        match l' with
        | y :: _ => if tine_eqb x y then dedup l' else x :: dedup l'
        | [] => [x]
        end
    end.
  (** 68: both. *)
  Definition btree_collect (l : list (Tine T)) : set := dedup (stable_sort l).

  (** [BTreeSet::iter().next()]: the first element (src/tine_tree.rs 79, 141, 154,
      243, 255, 843, 851, 882, 924). *)
  Definition btree_first (s : set) : option (Tine T) :=
    match s with [] => None | x :: _ => Some x end.

  (** [BTreeSet::iter().next_back()]: the last element (src/tine_tree.rs 86, 162,
      260, 840, 848, 881, 918; 848 is [next] on a reversed iterator). *)
  Fixpoint btree_last (s : set) : option (Tine T) :=
    match s with [] => None | [x] => Some x | _ :: s' => btree_last s' end.

  (** What is left in a set iterator after [next] (src/tine_tree.rs 154,
      1027, 1036, 1116, 1125) ... *)
  Definition btree_rest_front (s : set) : set :=
    match s with [] => [] | _ :: s' => s' end.

  (** ... and after [next_back] (src/tine_tree.rs 162, 1063, 1072, 1153, 1162). *)
  Fixpoint btree_rest_back (s : set) : set :=
    match s with [] => [] | [_] => [] | x :: s' => x :: btree_rest_back s' end.
End BTree.
