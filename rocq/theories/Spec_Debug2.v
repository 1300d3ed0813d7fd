(** * How Rust lays out an iterator in [{:?}] and [{:#?}] (C114)

    As Spec_Debug.v, with what the iterators need beyond it: a struct with named fields and a list.
    [{:?}] writes the first as [Name { field: value, .. }], on one line; [{:#?}] gives
    each field its own line or lines, four blanks further in and with a comma after it.
    Cites no code: the layout is a convention of std. *)
From Coq Require Import List String Ascii.
From Verif Require Import Base MBound MRaw MTine MTineTree MInterval MSelection Spec_Debug.
Import ListNotations.
Local Open Scope string_scope.

(** What is written: a term of Spec_Debug.v, a list of them, a name with one field, a struct with named fields, and something whose
    text is given, on one line and in lines. *)
Inductive shown (T : Type) : Type :=
| Plain (t : term T)
| Listed (l : list (term T))
| Wrapped (n : string) (x : shown T)
| Struct (n : string) (fields : list (string * shown T))
| Given (line : string) (lines : list string).
Arguments Plain {T}. Arguments Listed {T}. Arguments Wrapped {T}. Arguments Struct {T}. Arguments Given {T}.

Section Layout.
  Context {T : Type}.
  Fixpoint on_line (show : T -> string) (x : shown T) : string :=
    match x with
    | Plain t => one_line show t
    | Listed l => "[" ++ String.concat ", " (map (one_line show) l) ++ "]"
    | Wrapped n y => n ++ "(" ++ on_line show y ++ ")"
    | Struct n fields => n ++ " { " ++ String.concat ", " (map (fun '(f, y) => f ++ ": " ++ on_line show y) fields) ++ " }"
    | Given line _ => line
    end.

  (** A field's name goes before its first line. *)
  Definition named (f : string) (lines : list string) : list string :=
    match lines with [] => [] | l :: rest => (f ++ ": " ++ l) :: rest end.
  (** [show] gives the lines of a value of [T]. *)
  Fixpoint in_lines (show : T -> list string) (x : shown T) : list string :=
    match x with
    | Plain t => lines_of show t
    | Listed [] => ["[]"]
    | Listed l => ["["] ++ flat_map (fun t => inner (lines_of show t)) l ++ ["]"]
    | Wrapped n y => [n ++ "("] ++ inner (in_lines show y) ++ [")"]
    | Struct n fields => [n ++ " {"] ++ flat_map (fun '(f, y) => inner (named f (in_lines show y))) fields ++ ["}"]
    | Given _ lines => lines
    end.

  (** The iterators: [set] is what std's set iterator writes. *)
  Definition saved_shown (o : option (Tine T)) : shown T :=
    match o with Some t => Plain (App "Some" [tine_term t]) | None => Plain (Name "None") end.
  Definition interval_iter_shown (i : Interval T) : shown T :=
    Struct "Iter" [("inner", Plain (App "Interval" [raw_term (interval_raw i)]))].
  Definition tree_iter_shown (it : Iter T) : shown T :=
    Struct "Iter" [("tine_iter", Wrapped "Iter" (Listed (map tine_term (tine_iter it)))); ("saved_lower", saved_shown (saved_lower it));
                   ("saved_upper", saved_shown (saved_upper it))].
  Definition tree_into_iter_shown (set : list (Tine T) -> shown T) (it : Iter T) : shown T :=
    Struct "IntoIter" [("inner", set (tine_iter it)); ("saved_lower", saved_shown (saved_lower it)); ("saved_upper", saved_shown (saved_upper it))].
  Definition sel_iter_shown (it : SelIter T) : shown T :=
    Struct "Iter" [("intervals", tree_iter_shown (si_intervals it)); ("current", interval_iter_shown (si_current it))].
  Definition sel_into_iter_shown (set : list (Tine T) -> shown T) (it : SelIter T) : shown T :=
    Struct "IntoIter" [("intervals", tree_into_iter_shown set (si_intervals it)); ("current", interval_iter_shown (si_current it))].
End Layout.
