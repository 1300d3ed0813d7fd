(** * The derived [Debug] impls of the iterators

    [#[derive(Debug)]] at src/interval.rs 1857, src/tine_tree.rs 1009 and 1095 and
    src/selection.rs 967, 1009, 1053 and 1115: the text [format!("{:?}", it)] gives.  The
    derive writes a struct with named fields as [Name { field: value, .. }].  std's [Debug for btree_set::Iter] writes
    the elements not yet taken as [Iter([..])].  What std writes for
    [btree_set::IntoIter] is left open: [owned].  [format!("{:#?}", it)] has each field on its own
    line, four blanks further in. *)
From Coq Require Import List Bool String Ascii.
From Verif Require Import Base MBound MRaw MTine MTineTree MInterval MSelection MDebug.
Import ListNotations.
Local Open Scope string_scope.

Section DebugIter.
  Context {T : Type}.
  (** [T]'s own [{:?}]. *)
  Context (show : T -> string).

  (** src/interval.rs 1857-1861: [Iter].  Its state is the [Interval] left, as in MInterval.v. *)
  Definition interval_iter_debug (i : Interval T) : string := "Iter { inner: " ++ interval_debug show i ++ " }".

  (** A saved tine (src/tine_tree.rs 1014, 1016, 1101 and 1103), with the [Debug] of std's [Option]. *)
  Definition saved_debug (o : option (Tine T)) : string :=
    match o with Some t => "Some(" ++ tine_debug show t ++ ")" | None => "None" end.
  (** std's [Debug for btree_set::Iter], [f.debug_tuple("Iter").field(keys)], which src/tine_tree.rs 1099 uses. *)
  Definition set_iter_debug (s : list (Tine T)) : string := "Iter([" ++ String.concat ", " (map (tine_debug show) s) ++ "])".

  (** src/tine_tree.rs 1095-1104: [Iter]. *)
  Definition tree_iter_debug (it : Iter T) : string :=
    "Iter { tine_iter: " ++ set_iter_debug (tine_iter it) ++ ", saved_lower: " ++ saved_debug (saved_lower it) ++
    ", saved_upper: " ++ saved_debug (saved_upper it) ++ " }".
  (** src/selection.rs 1009-1011: [IntervalIter]. *)
  Definition sel_interval_iter_debug (it : Iter T) : string := "IntervalIter(" ++ tree_iter_debug it ++ ")".
  (** src/selection.rs 1115-1124: [Iter]. *)
  Definition sel_iter_debug (it : SelIter T) : string :=
    "Iter { intervals: " ++ tree_iter_debug (si_intervals it) ++ ", current: " ++ interval_iter_debug (si_current it) ++ " }".

  (** std's [Debug for btree_set::IntoIter], which src/tine_tree.rs 1012 uses. *)
  Context (owned : list (Tine T) -> string).
  (** src/tine_tree.rs 1009-1017: [IntoIter]. *)
  Definition tree_into_iter_debug (it : Iter T) : string :=
    "IntoIter { inner: " ++ owned (tine_iter it) ++ ", saved_lower: " ++ saved_debug (saved_lower it) ++
    ", saved_upper: " ++ saved_debug (saved_upper it) ++ " }".
  (** src/selection.rs 967-968: [IntoIntervalIter]. *)
  Definition sel_into_interval_iter_debug (it : Iter T) : string := "IntoIntervalIter(" ++ tree_into_iter_debug it ++ ")".
  (** src/selection.rs 1053-1061: [IntoIter]. *)
  Definition sel_into_iter_debug (it : SelIter T) : string :=
    "IntoIter { intervals: " ++ tree_into_iter_debug (si_intervals it) ++ ", current: " ++ interval_iter_debug (si_current it) ++ " }".
End DebugIter.

(** ** The multi-line form *)

(** A struct with named fields, src/interval.rs 1857 etc.: std's [f.debug_struct(name)]. *)
Definition struct (name : string) (fields : list (string * string)) : string :=
  name ++ " {" ++ String "010" "" ++ String.concat "" (map (fun f => field (fst f ++ ": " ++ snd f)) fields) ++ "}".

Section PrettyIter.
  Context {T : Type}.
  (** [T]'s own [{:#?}]. *)
  Context (show : T -> string).

  (** src/interval.rs 1857-1861: [Iter]. *)
  Definition interval_iter_pretty (i : Interval T) : string := struct "Iter" [("inner", interval_pretty show i)].

  (** A saved tine (src/tine_tree.rs 1014, 1016, 1101 and 1103), with the [Debug] of std's [Option]. *)
  Definition saved_pretty (o : option (Tine T)) : string :=
    match o with Some t => tuple "Some" [tine_pretty show t] | None => "None" end.
  (** The elements not yet taken, std's [f.debug_list().entries(..)], which src/tine_tree.rs 1099 uses. *)
  Definition list_pretty (s : list (Tine T)) : string :=
    match s with
    | [] => "[]"
    | _ => "[" ++ String "010" "" ++ String.concat "" (map (fun t => field (tine_pretty show t)) s) ++ "]"
    end.
  (** std's [Debug for btree_set::Iter], which src/tine_tree.rs 1099 uses. *)
  Definition set_iter_pretty (s : list (Tine T)) : string := tuple "Iter" [list_pretty s].

  (** src/tine_tree.rs 1095-1104: [Iter]. *)
  Definition tree_iter_pretty (it : Iter T) : string :=
    struct "Iter" [("tine_iter", set_iter_pretty (tine_iter it)); ("saved_lower", saved_pretty (saved_lower it));
                   ("saved_upper", saved_pretty (saved_upper it))].
  (** src/selection.rs 1009-1011: [IntervalIter]. *)
  Definition sel_interval_iter_pretty (it : Iter T) : string := tuple "IntervalIter" [tree_iter_pretty it].
  (** src/selection.rs 1115-1124: [Iter]. *)
  Definition sel_iter_pretty (it : SelIter T) : string :=
    struct "Iter" [("intervals", tree_iter_pretty (si_intervals it)); ("current", interval_iter_pretty (si_current it))].

  (** std's [Debug for btree_set::IntoIter], which src/tine_tree.rs 1012 uses. *)
  Context (owned : list (Tine T) -> string).
  (** src/tine_tree.rs 1009-1017: [IntoIter]. *)
  Definition tree_into_iter_pretty (it : Iter T) : string :=
    struct "IntoIter" [("inner", owned (tine_iter it)); ("saved_lower", saved_pretty (saved_lower it));
                       ("saved_upper", saved_pretty (saved_upper it))].
  (** src/selection.rs 967-968: [IntoIntervalIter]. *)
  Definition sel_into_interval_iter_pretty (it : Iter T) : string := tuple "IntoIntervalIter" [tree_into_iter_pretty it].
  (** src/selection.rs 1053-1061: [IntoIter]. *)
  Definition sel_into_iter_pretty (it : SelIter T) : string :=
    struct "IntoIter" [("intervals", tree_into_iter_pretty (si_intervals it)); ("current", interval_iter_pretty (si_current it))].
End PrettyIter.
