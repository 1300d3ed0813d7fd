(** * The derived [Debug] impls

    [#[derive(Debug)]] at src/bound.rs 32, src/tine.rs 33, src/raw_interval.rs 32
    and 503, src/interval.rs 47, src/tine_tree.rs 47 and src/selection.rs 36: the text
    [format!("{:?}", x)] gives.  The derive writes the name of the variant or
    struct and its fields in parentheses, separated by ", "; std's [Debug for
    BTreeSet] writes the elements in order in braces, separated by ", ".
    [format!("{:#?}", x)] has each field on its own line, four blanks further in.
    Simplification: no failing writer.  The iterators are in MDebugIter.v.  A text is the sequence of its UTF-8
    bytes, as in MParse.v. *)
From Coq Require Import List Bool String Ascii.
From Verif Require Import Base MBound MRaw MTine MTineTree Ints MInterval MSelection MParse.
Import ListNotations.
Local Open Scope string_scope.

Section Debug.
  Context {T : Type}.
  (** [T]'s own [{:?}]. *)
  Context (show : T -> string).

  (** src/bound.rs 32-41. *)
  Definition bound_debug (b : Bound T) : string :=
    match b with
    | Include x => "Include(" ++ show x ++ ")"
    | Exclude x => "Exclude(" ++ show x ++ ")"
    | Infinite => "Infinite"
    end.

  (** src/tine.rs 33-42. *)
  Definition tine_debug (t : Tine T) : string :=
    match t with
    | TLower b => "Lower(" ++ bound_debug b ++ ")"
    | TPoint b => "Point(" ++ bound_debug b ++ ")"
    | TUpper b => "Upper(" ++ bound_debug b ++ ")"
    end.

  (** src/raw_interval.rs 32-61. *)
  Definition raw_debug (i : RawInterval T) : string :=
    match i with
    | Empty => "Empty"
    | Point p => "Point(" ++ show p ++ ")"
    | Open l r => "Open(" ++ show l ++ ", " ++ show r ++ ")"
    | LeftOpen l r => "LeftOpen(" ++ show l ++ ", " ++ show r ++ ")"
    | RightOpen l r => "RightOpen(" ++ show l ++ ", " ++ show r ++ ")"
    | Closed l r => "Closed(" ++ show l ++ ", " ++ show r ++ ")"
    | UpTo p => "UpTo(" ++ show p ++ ")"
    | UpFrom p => "UpFrom(" ++ show p ++ ")"
    | To p => "To(" ++ show p ++ ")"
    | From p => "From(" ++ show p ++ ")"
    | Full => "Full"
    end.

  (** src/interval.rs 47-50. *)
  Definition interval_debug (i : Interval T) : string := "Interval(" ++ raw_debug (interval_raw i) ++ ")".

  (** std's [Debug for BTreeSet], [f.debug_set().entries(self.iter())], which src/tine_tree.rs 47-52 uses. *)
  Definition set_debug (s : list (Tine T)) : string := "{" ++ String.concat ", " (map tine_debug s) ++ "}".

  (** src/tine_tree.rs 47-52. *)
  Definition tree_debug (s : TineTree T) : string := "TineTree(" ++ set_debug s ++ ")".

  (** src/selection.rs 36-42. *)
  Definition sel_debug (s : Selection T) : string := "Selection(" ++ tree_debug s ++ ")".
End Debug.

(** ** The multi-line form *)

(** std's [PadAdapter], which the derives (src/bound.rs 32 etc.) use for [{:#?}]: four blanks
    before the first character of each line. *)
Fixpoint pad (line_start : bool) (s : string) : string :=
  match s with
  | EmptyString => EmptyString
  | String c s' => (if line_start then "    " else "") ++ String c (pad (Ascii.eqb c "010") s')
  end.
(** One field or element, src/bound.rs 32 etc.: std's [DebugTuple::field], [DebugSet::entry]. *)
Definition field (s : string) : string := pad true (s ++ "," ++ String "010" "").
(** A variant or struct with fields, src/bound.rs 32 etc.: std's [f.debug_tuple(name)]. *)
Definition tuple (name : string) (fields : list string) : string :=
  name ++ "(" ++ String "010" "" ++ String.concat "" (map field fields) ++ ")".

Section Pretty.
  Context {T : Type}.
  (** [T]'s own [{:#?}]. *)
  Context (show : T -> string).

  (** src/bound.rs 32-41. *)
  Definition bound_pretty (b : Bound T) : string :=
    match b with
    | Include x => tuple "Include" [show x]
    | Exclude x => tuple "Exclude" [show x]
    | Infinite => "Infinite"
    end.

  (** src/tine.rs 33-42. *)
  Definition tine_pretty (t : Tine T) : string :=
    match t with
    | TLower b => tuple "Lower" [bound_pretty b]
    | TPoint b => tuple "Point" [bound_pretty b]
    | TUpper b => tuple "Upper" [bound_pretty b]
    end.

  (** src/raw_interval.rs 32-61. *)
  Definition raw_pretty (i : RawInterval T) : string :=
    match i with
    | Empty => "Empty"
    | Point p => tuple "Point" [show p]
    | Open l r => tuple "Open" [show l; show r]
    | LeftOpen l r => tuple "LeftOpen" [show l; show r]
    | RightOpen l r => tuple "RightOpen" [show l; show r]
    | Closed l r => tuple "Closed" [show l; show r]
    | UpTo p => tuple "UpTo" [show p]
    | UpFrom p => tuple "UpFrom" [show p]
    | To p => tuple "To" [show p]
    | From p => tuple "From" [show p]
    | Full => "Full"
    end.

  (** src/interval.rs 47-50. *)
  Definition interval_pretty (i : Interval T) : string := tuple "Interval" [raw_pretty (interval_raw i)].

  (** std's [Debug for BTreeSet], which src/tine_tree.rs 47-52 uses. *)
  Definition set_pretty (s : list (Tine T)) : string :=
    match s with
    | [] => "{}"
    | _ => "{" ++ String "010" "" ++ String.concat "" (map (fun t => field (tine_pretty t)) s) ++ "}"
    end.

  (** src/tine_tree.rs 47-52. *)
  Definition tree_pretty (s : TineTree T) : string := tuple "TineTree" [set_pretty s].

  (** src/selection.rs 36-42. *)
  Definition sel_pretty (s : Selection T) : string := tuple "Selection" [tree_pretty s].
End Pretty.

(** src/raw_interval.rs 503-510: [E]'s [{:?}] is [show]. *)
Definition parse_error_debug {E : Type} (show : E -> string) (e : parse_error E) : string :=
  match e with
  | InvalidInterval => "InvalidInterval"
  | InvalidValue e => "InvalidValue(" ++ show e ++ ")"
  end.
