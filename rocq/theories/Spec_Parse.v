(** * What the text of intervals and integers should be *)
From Coq Require Import ZArith String Ascii.
From Verif Require Import Base MBound MRaw Ints MParse Spec.
Local Open Scope string_scope.

(** What [RawInterval]'s text relies on: [T] reads back what it prints, its text
    has no comma, does not start like the empty interval or minus infinity nor
    end like infinity, and nothing starting with a bracket is a [T]. *)
Record text_contract {T E} (show : T -> string) (parse : string -> result T E) : Prop := {
  reads_back : forall x, parse (show x) = Good x;
  no_comma : forall x a b, show x <> a ++ "," ++ b;
  not_empty_sign : forall x a, show x <> "Ø" ++ a;
  not_minus_infinity : forall x a, show x <> "-∞" ++ a;
  not_infinity : forall x a, show x <> a ++ "∞";
  no_round : forall s x, parse ("(" ++ s) <> Good x;
  no_square : forall s x, parse ("[" ++ s) <> Good x
}.

(** The same for every text [T] accepts. *)
Record plain_texts {T E} (parse : string -> result T E) : Prop := {
  plain_comma : forall s x a b, parse s = Good x -> s <> a ++ "," ++ b;
  plain_empty_sign : forall s x a, parse s = Good x -> s <> "Ø" ++ a;
  plain_minus_infinity : forall s x a, parse s = Good x -> s <> "-∞" ++ a;
  plain_infinity : forall s x a, parse s = Good x -> s <> a ++ "∞"
}.

(** The lower bound texts the parser accepts; [lax_inf] with [junk <> ""] is
    not interval notation. *)
Inductive lax_lower {T E} (parse : string -> result T E) : string -> Bound T -> Prop :=
| lax_inf junk : lax_lower parse ("(-∞" ++ junk) Infinite
| lax_exclude a l : parse a = Good l -> (forall junk, a <> "-∞" ++ junk) -> lax_lower parse ("(" ++ a) (Exclude l)
| lax_include a l : parse a = Good l -> lax_lower parse ("[" ++ a) (Include l).

(** The upper bound texts the parser accepts, likewise. *)
Inductive lax_upper {T E} (parse : string -> result T E) : string -> Bound T -> Prop :=
| lax_inf' junk : lax_upper parse (junk ++ "∞)") Infinite
| lax_exclude' a u : parse a = Good u -> (forall junk, a <> junk ++ "∞") -> lax_upper parse (a ++ ")") (Exclude u)
| lax_include' a u : parse a = Good u -> lax_upper parse (a ++ "]") (Include u).

(** Interval notation proper. *)
Inductive lower_text {T E} (parse : string -> result T E) : string -> Bound T -> Prop :=
| lt_inf : lower_text parse "(-∞" Infinite
| lt_exclude a l : parse a = Good l -> lower_text parse ("(" ++ a) (Exclude l)
| lt_include a l : parse a = Good l -> lower_text parse ("[" ++ a) (Include l).
Inductive upper_text {T E} (parse : string -> result T E) : string -> Bound T -> Prop :=
| ut_inf : upper_text parse "∞)" Infinite
| ut_exclude a u : parse a = Good u -> upper_text parse (a ++ ")") (Exclude u)
| ut_include a u : parse a = Good u -> upper_text parse (a ++ "]") (Include u).

(** [s] is notation for the set [P]. *)
Inductive notation {T E} {O : Ord T} (parse : string -> result T E) : string -> (T -> Prop) -> Prop :=
| n_empty : notation parse "Ø" (fun _ => False)
| n_point s p : parse s = Good p -> notation parse s (fun x => x = p)
| n_bounds x y lb ub : lower_text parse x lb -> upper_text parse y ub ->
    notation parse (x ++ "," ++ y) (fun z => above lb z /\ below ub z).

Local Open Scope Z_scope.

(** [s] is a non-empty string of decimal digits with value [n]. *)
Inductive digits : string -> Z -> Prop :=
| digits_one d : 0 <= d <= 9 -> digits (String (ascii_of_nat (Z.to_nat (48 + d))) "") d
| digits_more s n d : digits s n -> 0 <= d <= 9 ->
    digits (s ++ String (ascii_of_nat (Z.to_nat (48 + d))) "") (10 * n + d).

(** [s] is a decimal integer with an optional sign; only signed types take a
    minus sign. *)
Inductive decimal (signed : bool) : string -> Z -> Prop :=
| dec_plain s n : digits s n -> decimal signed s n
| dec_plus s n : digits s n -> decimal signed ("+" ++ s) n
| dec_minus s n : signed = true -> digits s n -> decimal signed ("-" ++ s) (- n).
