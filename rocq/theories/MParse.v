(** * Display and FromStr of RawInterval

    Models src/raw_interval.rs 439-510, and the std parsing and printing of the
    builtin integers which it calls.  A [&str] is the sequence of its UTF-8
    bytes: Coq's [string] is a sequence of bytes and a literal in this file
    stands for its UTF-8 encoding. *)
From Coq Require Import List Bool ZArith String Ascii.
From Verif Require Import Base MBound MRaw Ints.
Local Open Scope string_scope.

(** ** The str methods used (std) *)

(** [s.strip_prefix(p)], src/raw_interval.rs 474, 477; [s.starts_with(p)] is [strip_prefix] being [Some]. *)
Fixpoint strip_prefix (p s : string) : option string :=
  match p, s with
  | EmptyString, _ => Some s
  | String a p', String b s' => if Ascii.eqb a b then strip_prefix p' s' else None
  | String _ _, EmptyString => None
  end.
(** [s.starts_with(p)], src/raw_interval.rs 465, 472. *)
Definition starts_with (p s : string) : bool :=
  match strip_prefix p s with Some _ => true | None => false end.

(** [s.ends_with(p)], src/raw_interval.rs 484, 486, 490: the
    last [p.len()] bytes of [s] are those of [p]. *)
Definition ends_with (p s : string) : bool :=
  (length p <=? length s)%nat && String.eqb (substring (length s - length p) (length p) s) p.

(** [s.split_once(c)] for an ASCII [c], src/raw_interval.rs 469: around its first
    occurrence. *)
Fixpoint split_once (c : ascii) (s : string) : option (string * string) :=
  match s with
  | EmptyString => None
  | String a s' =>
      if Ascii.eqb a c then Some (EmptyString, s')
      else match split_once c s' with
           | Some (x, y) => Some (String a x, y)
           | None => None
           end
  end.

(** UTF-8 continuation bytes are 0x80-0xBF (for src/raw_interval.rs 488, 492). *)
Definition is_continuation (a : ascii) : bool :=
  (128 <=? nat_of_ascii a)%nat && (nat_of_ascii a <=? 191)%nat.

(** [s.is_char_boundary(i)] (for src/raw_interval.rs 488, 492). *)
Definition is_char_boundary (s : string) (i : nat) : bool :=
  match i with
  | O => true
  | _ => match get i s with
         | Some a => negb (is_continuation a)
         | None => (i =? length s)%nat
         end
  end.

(** [&s[..i]], src/raw_interval.rs 488, 492: panics
    when [i] is not on a character boundary. *)
Definition slice_to (s : string) (i : nat) : res string :=
  if is_char_boundary s i then Ok (substring 0 i s) else Panic.

(** [s.len() - 1], src/raw_interval.rs 487, 491, with overflow (never at 0, see C12). *)
Definition len_minus_1 (s : string) : res nat :=
  match length s with O => Panic | S n => Ok n end.

(** ** RawInterval *)

(** src/raw_interval.rs 503-510: [IntervalParseError]. *)
Inductive parse_error (E : Type) : Type :=
| InvalidInterval
| InvalidValue (e : E).
Arguments InvalidInterval {E}.
Arguments InvalidValue {E} e.

(** [Result<T, E>], src/raw_interval.rs 462. *)
Inductive result (A E : Type) : Type :=
| Good (a : A)
| Err (e : E).
Arguments Good {A E} a.
Arguments Err {A E} e.

Section Parse.
  Context {T E : Type} {O : Cmp T}.
  (** [T]'s own Display and FromStr. *)
  Context (show : T -> string) (parse : string -> result T E).

  (** src/raw_interval.rs 440-457: [Display]. *)
  Definition show_raw (i : RawInterval T) : string :=
    match i with
    | Empty => "Ø"
    | Point p => show p
    | Open l r => "(" ++ show l ++ "," ++ show r ++ ")"
    | LeftOpen l r => "(" ++ show l ++ "," ++ show r ++ "]"
    | RightOpen l r => "[" ++ show l ++ "," ++ show r ++ ")"
    | Closed l r => "[" ++ show l ++ "," ++ show r ++ "]"
    | UpTo p => "(-∞," ++ show p ++ ")"
    | UpFrom p => "(" ++ show p ++ ",∞)"
    | To p => "(-∞," ++ show p ++ "]"
    | From p => "[" ++ show p ++ ",∞)"
    | Full => "(-∞,∞)"
    end.

  (** src/raw_interval.rs 472-482: the lower bound, from the text before the
      comma. *)
  Definition parse_lower (x : string) : result (Bound T) (parse_error E) :=
    if starts_with "(-∞" x then Good Infinite
    else match strip_prefix "(" x with
         | Some r => match parse r with Good l => Good (Exclude l) | Err e => Err (InvalidValue e) end
         | None => match strip_prefix "[" x with
                   | Some r => match parse r with Good l => Good (Include l) | Err e => Err (InvalidValue e) end
                   | None => Err InvalidInterval
                   end
         end.

  (** src/raw_interval.rs 484-496: the upper bound, from the text after it. *)
  Definition parse_upper (y : string) : res (result (Bound T) (parse_error E)) :=
    if ends_with "∞)" y then Ok (Good Infinite)
    else if ends_with ")" y then
      do n <- len_minus_1 y; do t <- slice_to y n;
      Ok (match parse t with Good u => Good (Exclude u) | Err e => Err (InvalidValue e) end)
    else if ends_with "]" y then
      do n <- len_minus_1 y; do t <- slice_to y n;
      Ok (match parse t with Good u => Good (Include u) | Err e => Err (InvalidValue e) end)
    else Ok (Err InvalidInterval).

  (** src/raw_interval.rs 459-500: [FromStr]. *)
  Definition parse_raw (s : string) : res (result (RawInterval T) (parse_error E)) :=
    if starts_with "Ø" s then Ok (Good Empty)
    else match parse s with
         | Good p => Ok (Good (Point p))
         | Err _ =>
             match split_once "," s with
             | None => Ok (Err InvalidInterval)
             | Some (x, y) =>
                 match parse_lower x with
                 | Err e => Ok (Err e)
                 | Good lb =>
                     do ub <- parse_upper y;
                     match ub with
                     | Err e => Ok (Err e)
                     | Good ub => Ok (Good (raw_new lb ub))
                     end
                 end
             end
         end.
End Parse.

(** ** The builtin integers (std) *)
Local Open Scope Z_scope.

(** [core::num::IntErrorKind], in the errors of [T::from_str] (src/raw_interval.rs
    475, 478, 488, 492). *)
Inductive int_error : Type := IntEmpty | InvalidDigit | PosOverflow | NegOverflow.

(** A byte by its number. *)
Definition byte (z : Z) : ascii := ascii_of_nat (Z.to_nat z).

(** Decimal digits of [n >= 0], most significant first, without leading zeros. *)
Fixpoint show_digits (fuel : nat) (n : Z) (acc : string) : string :=
  match fuel with
  | O => acc
  | S k => let acc' := String (byte (48 + n mod 10)) acc in
           if n <? 10 then acc' else show_digits k (n / 10) acc'
  end.
(** [Display] of an integer with default formatting (called by src/raw_interval.rs
    445-453). *)
Definition show_Z (z : Z) : string :=
  let digits := show_digits (S (Z.to_nat (Z.log2 (Z.abs z)))) (Z.abs z) EmptyString in
  if z <? 0 then String "-" digits else digits.

(** [(c as char).to_digit(10)], in [T::from_str]. *)
Definition to_digit (a : ascii) : option Z :=
  let n := Z.of_nat (nat_of_ascii a) in
  if (48 <=? n) && (n <=? 57) then Some (n - 48) else None.

Section IntText.
  Context {lo hi : Z} {I : IntType lo hi}.

  (** [Display] of the integer type. *)
  Definition show_int (x : int lo hi) : string := show_Z (ival x).

  (** No overflow in [checked_mul], [checked_add], [checked_sub]. *)
  Definition fits (z : Z) : bool := (lo <=? z) && (z <=? hi).

  (** The digit loop of [from_str_radix]: [checked_mul], then [to_digit], then
      [checked_add] (or [checked_sub] after a minus sign). *)
  Fixpoint parse_digits (neg : bool) (acc : Z) (s : string) : result Z int_error :=
    match s with
    | EmptyString => Good acc
    | String a s' =>
        let mul := acc * 10 in
        match to_digit a with
        | None => Err InvalidDigit
        | Some d =>
            let next := if neg then mul - d else mul + d in
            if fits mul && fits next then parse_digits neg next s'
            else Err (if neg then NegOverflow else PosOverflow)
        end
    end.

  (** [FromStr] of the integer type, [i..::from_str_radix(s, 10)].  A type is
      signed iff its minimum is negative. *)
  Definition parse_int (s : string) : result (int lo hi) int_error :=
    match s with
    | EmptyString => Err IntEmpty
    | String a s' =>
        let run neg t := match parse_digits neg 0 t with
                         | Good z => Good (int_of_Z z)
                         | Err e => Err e
                         end in
        if Ascii.eqb a "+" then
          match s' with EmptyString => Err InvalidDigit | _ => run false s' end
        else if Ascii.eqb a "-" then
          match s' with
          | EmptyString => Err InvalidDigit
          | _ => if lo <? 0 then run true s' else run false s
          end
        else run false s
    end.
End IntText.
