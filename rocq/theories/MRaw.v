(** * Model of src/raw_interval.rs (Display and FromStr are in MParse.v)

    The crate [few] ([Few::Zero/One/Two], an iterator over 0, 1 or 2 items) is
    modelled by lists of that length; [impl Iterator] results are lists of the
    items in order. *)
From Coq Require Import List Bool.
From Verif Require Import Base MBound.
Import ListNotations.

(** src/raw_interval.rs 34-61: [enum RawInterval<T>]. *)
Inductive RawInterval (T : Type) : Type :=
| Empty
| Point (p : T)
| Open (l r : T)
| LeftOpen (l r : T)
| RightOpen (l r : T)
| Closed (l r : T)
| UpTo (p : T)
| UpFrom (p : T)
| To (p : T)
| From (p : T)
| Full.
Arguments Empty {T}.
Arguments Point {T} p.
Arguments Open {T} l r.
Arguments LeftOpen {T} l r.
Arguments RightOpen {T} l r.
Arguments Closed {T} l r.
Arguments UpTo {T} p.
Arguments UpFrom {T} p.
Arguments To {T} p.
Arguments From {T} p.
Arguments Full {T}.

Section Raw.
  Context {T : Type}.
  Implicit Types i : RawInterval T.

  (** src/raw_interval.rs 70-72: [is_empty]. *)
  Definition raw_is_empty i : bool := match i with Empty => true | _ => false end.

  (** src/raw_interval.rs 77-79: [is_full]. *)
  Definition raw_is_full i : bool := match i with Full => true | _ => false end.

  (** src/raw_interval.rs 195-211: [lower_bound]. *)
  Definition raw_lower_bound i : option (Bound T) :=
    match i with
    | Empty => None
    | Point p => Some (Include p)
    | Open l _ => Some (Exclude l)
    | LeftOpen l _ => Some (Exclude l)
    | RightOpen l _ => Some (Include l)
    | Closed l _ => Some (Include l)
    | UpTo _ => Some Infinite
    | UpFrom p => Some (Exclude p)
    | To _ => Some Infinite
    | From p => Some (Include p)
    | Full => Some Infinite
    end.

  (** src/raw_interval.rs 215-231: [upper_bound]. *)
  Definition raw_upper_bound i : option (Bound T) :=
    match i with
    | Empty => None
    | Point p => Some (Include p)
    | Open _ r => Some (Exclude r)
    | LeftOpen _ r => Some (Include r)
    | RightOpen _ r => Some (Exclude r)
    | Closed _ r => Some (Include r)
    | UpTo p => Some (Exclude p)
    | UpFrom _ => Some Infinite
    | To p => Some (Include p)
    | From _ => Some Infinite
    | Full => Some Infinite
    end.

  (** src/raw_interval.rs 234-241: [infimum]. *)
  Definition raw_infimum i : option T :=
    match raw_lower_bound i with
    | Some (Include b) => Some b
    | Some (Exclude b) => Some b
    | _ => None
    end.

  (** src/raw_interval.rs 244-251: [supremum]. *)
  Definition raw_supremum i : option T :=
    match raw_upper_bound i with
    | Some (Include b) => Some b
    | Some (Exclude b) => Some b
    | _ => None
    end.

  (** src/raw_interval.rs 282-297: [complement]. *)
  Definition raw_complement i : list (RawInterval T) :=
    match i with
    | Empty => [Full]
    | Point p => [UpTo p; UpFrom p]
    | Open l r => [To l; From r]
    | LeftOpen l r => [To l; UpFrom r]
    | RightOpen l r => [UpTo l; From r]
    | Closed l r => [UpTo l; UpFrom r]
    | UpTo p => [From p]
    | UpFrom p => [To p]
    | To p => [UpFrom p]
    | From p => [UpTo p]
    | Full => []
    end.

  (** src/raw_interval.rs 375-385: [closure]. *)
  Definition raw_closure i : RawInterval T :=
    match i with
    | Open l r => Closed l r
    | LeftOpen l r => Closed l r
    | RightOpen l r => Closed l r
    | UpTo r => To r
    | UpFrom l => From l
    | _ => i
    end.

  Context {O : Cmp T}.

  (** src/raw_interval.rs 114-120: [open]. *)
  Definition raw_open (lower upper : T) : RawInterval T :=
    match cmp lower upper with
    | Lt => Open lower upper
    | _ => Empty
    end.

  (** src/raw_interval.rs 128-135: [left_open]. *)
  Definition raw_left_open (lower upper : T) : RawInterval T :=
    match cmp lower upper with
    | Lt => LeftOpen lower upper
    | Eq => Point upper
    | Gt => Empty
    end.

  (** src/raw_interval.rs 143-150: [right_open]. *)
  Definition raw_right_open (lower upper : T) : RawInterval T :=
    match cmp lower upper with
    | Lt => RightOpen lower upper
    | Eq => Point lower
    | Gt => Empty
    end.

  (** src/raw_interval.rs 158-165: [closed]. *)
  Definition raw_closed (lower upper : T) : RawInterval T :=
    match cmp lower upper with
    | Lt => Closed lower upper
    | Eq => Point lower
    | Gt => Empty
    end.

  (** src/raw_interval.rs 92-106: [new]. *)
  Definition raw_new (lower upper : Bound T) : RawInterval T :=
    match lower, upper with
    | Include l, Include u => raw_closed l u
    | Include l, Exclude u => raw_right_open l u
    | Include l, Infinite => From l
    | Exclude l, Include u => raw_left_open l u
    | Exclude l, Exclude u => raw_open l u
    | Exclude l, Infinite => UpFrom l
    | Infinite, Include u => To u
    | Infinite, Exclude u => UpTo u
    | Infinite, Infinite => Full
    end.

  (** src/raw_interval.rs 171-186: [contains]. *)
  Definition raw_contains i (point : T) : bool :=
    match i with
    | Empty => false
    | Point p => eqb point p
    | Open l r => gtb point l && ltb point r
    | LeftOpen l r => gtb point l && leb point r
    | RightOpen l r => geb point l && ltb point r
    | Closed l r => geb point l && leb point r
    | UpTo p => ltb point p
    | UpFrom p => gtb point p
    | To p => leb point p
    | From p => geb point p
    | Full => true
    end.

  (** src/raw_interval.rs 264-275: [is_adjacent_to]. *)
  Definition raw_is_adjacent_to i (other : RawInterval T) : bool :=
    let a := match raw_lower_bound i, raw_upper_bound other with
             | Some lb, Some ub => is_union_adjacent_to lb ub
             | _, _ => false
             end in
    let b := match raw_upper_bound i, raw_lower_bound other with
             | Some ub, Some lb => is_union_adjacent_to lb ub
             | _, _ => false
             end in
    a || b.

  (** [Option<&T> == Option<&T>], used at src/raw_interval.rs 313 and by the
      debug assertions in src/tine.rs. *)
  Definition opt_eqb (a b : option T) : bool :=
    match a, b with
    | Some x, Some y => eqb x y
    | None, None => true
    | _, _ => false
    end.

  (** src/raw_interval.rs 302-321: [intersect]. *)
  Definition raw_intersect i (other : RawInterval T) : RawInterval T :=
    match raw_lower_bound i, raw_lower_bound other with
    | Some a, Some b =>
        let lb := greatest_intersect a b in
        match raw_upper_bound i, raw_upper_bound other with
        | Some a, Some b =>
            let ub := least_intersect a b in
            if opt_eqb (bound_as_ref lb) (bound_as_ref ub) &&
               ((is_inclusive lb && is_exclusive ub) ||
                (is_exclusive lb && is_inclusive ub))
            then Empty
            else raw_new lb ub
        | _, _ => Empty
        end
    | _, _ => Empty
    end.

  (** src/raw_interval.rs 259-261: [intersects]. *)
  Definition raw_intersects i (other : RawInterval T) : bool :=
    negb (raw_is_empty (raw_intersect i other)).

  (** src/raw_interval.rs 354-370: [enclose]. *)
  Definition raw_enclose i (other : RawInterval T) : RawInterval T :=
    match (match raw_lower_bound i, raw_lower_bound other with
           | Some a, Some b => Some (least_union a b)
           | Some a, None => Some a
           | None, Some b => Some b
           | None, None => None
           end) with
    | None => Empty
    | Some lb =>
        match (match raw_upper_bound i, raw_upper_bound other with
               | Some a, Some b => Some (greatest_union a b)
               | Some a, None => Some a
               | None, Some b => Some b
               | None, None => None
               end) with
        | None => Empty
        | Some ub => raw_new lb ub
        end
    end.

  (** src/raw_interval.rs 325-339: [union]. *)
  Definition raw_union i (other : RawInterval T) : list (RawInterval T) :=
    match raw_is_empty i, raw_is_empty other with
    | true, true => []
    | true, false => [other]
    | false, true => [i]
    | false, false =>
        if raw_intersects i other || raw_is_adjacent_to i other
        then [raw_enclose i other]
        else [i; other]
    end.

  (** src/raw_interval.rs 343-349: [minus]. *)
  Definition raw_minus i (other : RawInterval T) : list (RawInterval T) :=
    filter (fun j => negb (raw_is_empty j))
      (map (fun j => raw_intersect i j) (raw_complement other)).

  (** src/raw_interval.rs 392-396: [enclose_all]. *)
  Definition raw_enclose_all (l : list (RawInterval T)) : RawInterval T :=
    fold_left (fun acc i => raw_enclose acc i) l Full.

  (** src/raw_interval.rs 400-404: [intersect_all]. *)
  Definition raw_intersect_all (l : list (RawInterval T)) : RawInterval T :=
    fold_left (fun acc i => raw_intersect acc i) l Full.

  (** src/raw_interval.rs 422-430: the loop over [prev] in [union_all]: the
      first item that meets [next] is replaced by the enclosure, otherwise
      [next] is pushed. *)
  Fixpoint raw_union_all_step (prev : list (RawInterval T)) (next : RawInterval T)
    : list (RawInterval T) :=
    match prev with
    | [] => [next]
    | item :: rest =>
        if raw_intersects item next || raw_is_adjacent_to item next
        then raw_enclose item next :: rest
        else item :: raw_union_all_step rest next
    end.

  (** src/raw_interval.rs 408-436: [union_all]. *)
  Definition raw_union_all (l : list (RawInterval T)) : list (RawInterval T) :=
    match filter (fun i => negb (raw_is_empty i)) l with
    | [] => []
    | start :: rest =>
        fold_left
          (fun prev next =>
             if raw_is_full next then [Full] else raw_union_all_step prev next)
          rest [start]
    end.
End Raw.
