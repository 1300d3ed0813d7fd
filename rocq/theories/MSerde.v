(** * Serialisation ([feature = "serde"])

    The derived [Serialize] and [Deserialize] of src/bound.rs 33, src/tine.rs 34,
    src/raw_interval.rs 33, src/interval.rs 48-49, src/tine_tree.rs 48-51 and
    src/selection.rs 38-41.

    Serde itself is not in /repo.  Its derive macros are modelled by what they
    document: an enum value is a variant of the serde data model, named after
    the Rust variant; a [serde(transparent)] struct is its field; a [BTreeSet]
    is a sequence, read back by inserting its items one after the other.
    Simplifications: the format behind the data model is the identity (whatever
    it writes it reads back), variants are identified by name only, and an
    error of the deserialiser is [None], without its message. *)
From Coq Require Import List Bool ZArith String.
From Verif Require Import Base Ints MBound MRaw MNormalize MTine MBTree MTineTree MInterval MSelection.
Import ListNotations.
Local Open Scope string_scope.

(** The part of the serde data model the crate's types use (src/bound.rs 33,
    src/tine.rs 34, src/raw_interval.rs 33 and the transparent structs). *)
Inductive content : Type :=
| CInt (z : Z)                                   (* i8..i128, u8..u128 *)
| CUnitVariant (name : string)                   (* Enum::Name *)
| CNewtypeVariant (name : string) (c : content)  (* Enum::Name(c) *)
| CTupleVariant (name : string) (l : list content) (* Enum::Name(c1, c2) *)
| CSeq (l : list content).

(** [T: Serialize + Deserialize], the bound the derives put on [T]: reading accepts exactly what is written. *)
Class Serde (T : Type) : Type := {
  ser : T -> content;
  de : content -> option T;
  de_ser : forall c x, de c = Some x <-> c = ser x
}.

(** Serde's impls for the builtin integers: an out-of-range integer is an error. *)
#[global] Instance int_Serde {lo hi : Z} : Serde (int lo hi).
Proof.
  refine {| ser := fun x => CInt (ival x);
            de := fun c => match c with
                           | CInt z => match bool_dec ((lo <=? z)%Z && (z <=? hi)%Z) true with
                                       | left p => Some (mkint z p)
                                       | right _ => None
                                       end
                           | _ => None
                           end |}.
  intros c x. split.
  - destruct c as [z| | | |]; try discriminate. destruct (bool_dec _ _) as [p|p]; [|discriminate]. now intros [= <-].
  - intros ->. destruct (bool_dec _ _) as [p|p]; [|now destruct p, x]. f_equal. now apply int_ext.
Defined.

Section Serde.
  Context {T : Type} {O : Cmp T} {D : Serde T}.

  (** src/bound.rs 33-41: [Bound]. *)
  Definition bound_ser (b : Bound T) : content :=
    match b with
    | Include x => CNewtypeVariant "Include" (ser x)
    | Exclude x => CNewtypeVariant "Exclude" (ser x)
    | Infinite => CUnitVariant "Infinite"
    end.
  Definition bound_de (c : content) : option (Bound T) :=
    match c with
    | CNewtypeVariant n c =>
        if n =? "Include" then option_map Include (de c)
        else if n =? "Exclude" then option_map Exclude (de c) else None
    | CUnitVariant n => if n =? "Infinite" then Some Infinite else None
    | _ => None
    end.

  (** src/tine.rs 34-42: [Tine]. *)
  Definition tine_ser (t : Tine T) : content :=
    match t with
    | TLower b => CNewtypeVariant "Lower" (bound_ser b)
    | TPoint b => CNewtypeVariant "Point" (bound_ser b)
    | TUpper b => CNewtypeVariant "Upper" (bound_ser b)
    end.
  Definition tine_de (c : content) : option (Tine T) :=
    match c with
    | CNewtypeVariant n c =>
        if n =? "Lower" then option_map TLower (bound_de c)
        else if n =? "Point" then option_map TPoint (bound_de c)
        else if n =? "Upper" then option_map TUpper (bound_de c) else None
    | _ => None
    end.

  (** src/raw_interval.rs 33-61: [RawInterval]. *)
  Definition raw_ser (r : RawInterval T) : content :=
    match r with
    | Empty => CUnitVariant "Empty"
    | Point p => CNewtypeVariant "Point" (ser p)
    | Open l r => CTupleVariant "Open" [ser l; ser r]
    | LeftOpen l r => CTupleVariant "LeftOpen" [ser l; ser r]
    | RightOpen l r => CTupleVariant "RightOpen" [ser l; ser r]
    | Closed l r => CTupleVariant "Closed" [ser l; ser r]
    | UpTo p => CNewtypeVariant "UpTo" (ser p)
    | UpFrom p => CNewtypeVariant "UpFrom" (ser p)
    | To p => CNewtypeVariant "To" (ser p)
    | From p => CNewtypeVariant "From" (ser p)
    | Full => CUnitVariant "Full"
    end.
  Definition de_pair (f : T -> T -> RawInterval T) (a b : content) : option (RawInterval T) :=
    match de a, de b with Some x, Some y => Some (f x y) | _, _ => None end.
  Definition raw_de (c : content) : option (RawInterval T) :=
    match c with
    | CUnitVariant n => if n =? "Empty" then Some Empty else if n =? "Full" then Some Full else None
    | CNewtypeVariant n c =>
        if n =? "Point" then option_map Point (de c)
        else if n =? "UpTo" then option_map UpTo (de c)
        else if n =? "UpFrom" then option_map UpFrom (de c)
        else if n =? "To" then option_map To (de c)
        else if n =? "From" then option_map From (de c) else None
    | CTupleVariant n [a; b] =>
        if n =? "Open" then de_pair Open a b
        else if n =? "LeftOpen" then de_pair LeftOpen a b
        else if n =? "RightOpen" then de_pair RightOpen a b
        else if n =? "Closed" then de_pair Closed a b else None
    | _ => None
    end.

  (** src/interval.rs 48-50: [Interval], transparent. *)
  Definition interval_ser (i : Interval T) : content := raw_ser (interval_raw i).
  Definition interval_de (c : content) : option (Interval T) :=
    option_map (fun r => {| interval_raw := r |}) (raw_de c).

  (** [BTreeSet::insert] where the comparison may panic (src/tine.rs 300,
      [Point(Infinite)], which only arrives from a deserialiser; elsewhere the
      model uses [btree_insert]).  Simplification: the tines already in the set
      are compared in ascending order, as in a set of one node. *)
  Fixpoint try_insert (t : Tine T) (s : TineTree T) : res (TineTree T) :=
    match s with
    | [] => Ok [t]
    | x :: s' =>
        do c <- tine_partial_cmp t x;
        match c with
        | Lt => Ok (t :: x :: s')
        | Eq => Ok (x :: s')
        | Gt => do r <- try_insert t s'; Ok (x :: r)
        end
    end.

  (** src/tine_tree.rs 48-52: [TineTree], transparent over its [BTreeSet]. *)
  Definition tree_ser (s : TineTree T) : content := CSeq (map tine_ser s).
  Fixpoint tree_de_seq (l : list content) (s : TineTree T) : res (option (TineTree T)) :=
    match l with
    | [] => Ok (Some s)
    | c :: l' =>
        match tine_de c with
        | None => Ok None
        | Some t => do s' <- try_insert t s; tree_de_seq l' s'
        end
    end.
  Definition tree_de (c : content) : res (option (TineTree T)) :=
    match c with CSeq l => tree_de_seq l [] | _ => Ok None end.

  (** src/selection.rs 38-42: [Selection], transparent over its [TineTree]. *)
  Definition sel_ser (s : Selection T) : content := tree_ser s.
  Definition sel_de (c : content) : res (option (Selection T)) := tree_de c.
End Serde.
