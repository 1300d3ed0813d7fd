(** * How Rust lays out a value in [{:?}] and [{:#?}] (C111)

    A value is written as the source would write it: the name of the variant or
    struct, then its fields in order.  [{:?}] puts this on one line.  [{:#?}]
    gives each field its own line or lines, four blanks further in and with a
    comma after it.  Cites no code: the layout is a convention of std. *)
From Coq Require Import List String Ascii.
From Verif Require Import MBound MRaw MTine.
Import ListNotations.
Local Open Scope string_scope.

(** What is written: a value of [T], a name alone, a name with fields, a set. *)
Inductive term (T : Type) : Type :=
| Val (x : T)
| Name (n : string)
| App (n : string) (fields : list (term T))
| Set_of (elements : list (term T)).
Arguments Val {T}. Arguments Name {T}. Arguments App {T}. Arguments Set_of {T}.

Definition newline : string := String "010" "".

Section Layout.
  Context {T : Type}.
  Fixpoint one_line (show : T -> string) (t : term T) : string :=
    match t with
    | Val x => show x
    | Name n => n
    | App n fields => n ++ "(" ++ String.concat ", " (map (one_line show) fields) ++ ")"
    | Set_of l => "{" ++ String.concat ", " (map (one_line show) l) ++ "}"
    end.

  (** The lines of a field: a comma after the last, all four blanks further in. *)
  Fixpoint comma (lines : list string) : list string :=
    match lines with
    | [] => []
    | [l] => [l ++ ","]
    | l :: rest => l :: comma rest
    end.
  Definition inner (lines : list string) : list string := map (fun l => "    " ++ l) (comma lines).
  (** [show] gives the lines of a value of [T]. *)
  Fixpoint lines_of (show : T -> list string) (t : term T) : list string :=
    match t with
    | Val x => show x
    | Name n => [n]
    | App n fields => [n ++ "("] ++ flat_map (fun f => inner (lines_of show f)) fields ++ [")"]
    | Set_of [] => ["{}"]
    | Set_of l => ["{"] ++ flat_map (fun f => inner (lines_of show f)) l ++ ["}"]
    end.
  Definition text (lines : list string) : string := String.concat newline lines.

  (** The values as terms. *)
  Definition bound_term (b : Bound T) : term T :=
    match b with Include x => App "Include" [Val x] | Exclude x => App "Exclude" [Val x] | Infinite => Name "Infinite" end.
  Definition tine_term (t : Tine T) : term T :=
    match t with TLower b => App "Lower" [bound_term b] | TPoint b => App "Point" [bound_term b] | TUpper b => App "Upper" [bound_term b] end.
  Definition raw_term (i : RawInterval T) : term T :=
    match i with
    | Empty => Name "Empty"
    | Full => Name "Full"
    | Point x => App "Point" [Val x]
    | Open lower upper => App "Open" [Val lower; Val upper]
    | LeftOpen lower upper => App "LeftOpen" [Val lower; Val upper]
    | RightOpen lower upper => App "RightOpen" [Val lower; Val upper]
    | Closed lower upper => App "Closed" [Val lower; Val upper]
    | UpTo x => App "UpTo" [Val x]
    | UpFrom x => App "UpFrom" [Val x]
    | To x => App "To" [Val x]
    | From x => App "From" [Val x]
    end.
End Layout.
