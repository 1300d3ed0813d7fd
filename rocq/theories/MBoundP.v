(** * Model of the operators of src/bound.rs on partially ordered types

    [Bound]'s operators ask for [T: PartialOrd] only, so they can be used on
    [f64].  MBound.v models them for [T: Ord]; here is the general case. *)
From Coq Require Import Bool ZArith Lia Floats.SpecFloat.
From Verif Require Import Base MBound.

(** ** [T: PartialOrd].  [std::cmp::PartialOrd] with its documented laws: [==]
    is [partial_cmp == Some(Equal)], duality, transitivity, and equal values
    compare alike.  A value need not equal itself (NaN), nor be identical to
    its equals (0.0 and -0.0). *)
Class POrd (T : Type) : Type := {
  pcmp : T -> T -> option comparison;
  pcmp_dual : forall x y, pcmp y x = option_map CompOpp (pcmp x y);
  pcmp_trans : forall x y z, pcmp x y = Some Lt -> pcmp y z = Some Lt -> pcmp x z = Some Lt;
  pcmp_equal : forall x y z, pcmp x y = Some Eq -> pcmp x z = pcmp y z
}.

Section BoundP.
  Context {T : Type} {O : POrd T}.
  (** Rust's [<], [<=], [>], [>=] on [T: PartialOrd], as used in src/bound.rs 425-505. *)
  Definition pltb (x y : T) : bool := match pcmp x y with Some Lt => true | _ => false end.
  Definition pleb (x y : T) : bool := match pcmp x y with Some Lt | Some Eq => true | _ => false end.
  Definition pgtb (x y : T) : bool := match pcmp x y with Some Gt => true | _ => false end.
  Definition pgeb (x y : T) : bool := match pcmp x y with Some Gt | Some Eq => true | _ => false end.

  (** src/bound.rs 422-438: [least_union]. *)
  Definition p_least_union (b o : Bound T) : Bound T :=
    match b, o with
    | Include p, Include q => if pltb p q then Include p else Include q
    | Include p, Exclude q => if pleb p q then Include p else Exclude q
    | Exclude p, Include q => if pltb p q then Exclude p else Include q
    | Exclude p, Exclude q => if pltb p q then Exclude p else Exclude q
    | _, _ => Infinite
    end.

  (** src/bound.rs 443-467: [least_intersect]. *)
  Definition p_least_intersect (b o : Bound T) : Bound T :=
    match b, o with
    | Include p, Include q => if pltb p q then Include p else Include q
    | Include p, Exclude q => if pltb p q then Include p else Exclude q
    | Exclude p, Include q => if pleb p q then Exclude p else Include q
    | Exclude p, Exclude q => if pltb p q then Exclude p else Exclude q
    | Include p, Infinite => Include p
    | Exclude p, Infinite => Exclude p
    | Infinite, Include q => Include q
    | Infinite, Exclude q => Exclude q
    | _, _ => Infinite
    end.

  (** src/bound.rs 472-488: [greatest_union]. *)
  Definition p_greatest_union (b o : Bound T) : Bound T :=
    match b, o with
    | Include p, Include q => if pgtb p q then Include p else Include q
    | Include p, Exclude q => if pgeb p q then Include p else Exclude q
    | Exclude p, Include q => if pgtb p q then Exclude p else Include q
    | Exclude p, Exclude q => if pgtb p q then Exclude p else Exclude q
    | _, _ => Infinite
    end.

  (** src/bound.rs 493-517: [greatest_intersect]. *)
  Definition p_greatest_intersect (b o : Bound T) : Bound T :=
    match b, o with
    | Include p, Include q => if pgtb p q then Include p else Include q
    | Include p, Exclude q => if pgtb p q then Include p else Exclude q
    | Exclude p, Include q => if pgeb p q then Exclude p else Include q
    | Exclude p, Exclude q => if pgtb p q then Exclude p else Exclude q
    | Include p, Infinite => Include p
    | Exclude p, Infinite => Exclude p
    | Infinite, Include q => Include q
    | Infinite, Exclude q => Exclude q
    | _, _ => Infinite
    end.

  (** src/bound.rs 32: [derive(PartialEq)]. *)
  Definition p_bound_eqb (b o : Bound T) : bool :=
    match b, o with
    | Include p, Include q | Exclude p, Exclude q => match pcmp p q with Some Eq => true | _ => false end
    | Infinite, Infinite => true
    | _, _ => false
    end.
End BoundP.

(** Every [T: Ord] is [PartialOrd] through [Some(cmp)]. *)
#[export] Instance Ord_POrd (T : Type) (O : Ord T) : POrd T.
Proof.
  refine {| pcmp x y := Some (cmp x y) |}.
  - intros x y. simpl. now rewrite cmp_antisym.
  - intros x y z [= H] [= H']. f_equal. eapply cmp_lt_trans; eauto.
  - intros x y z [= H]. apply cmp_eq in H. now subst.
Defined.

(** IEEE 754 floats, as the standard library of Coq specifies them: [f64] and
    [f32] compare by [SFcompare] (NaN is incomparable, zeros are equal). *)
#[export] Instance float_POrd : POrd spec_float.
Proof.
  refine {| pcmp := SFcompare |}.
  - intros [[]|[]| |[] m e] [[]|[]| |[] m' e']; simpl; auto; rewrite (Z.compare_antisym e e'); fold (Pos.compare m m') (Pos.compare m' m);
      destruct (e ?= e')%Z; simpl; auto; rewrite (Pos.compare_antisym m m'); now destruct (m ?= m')%positive.
  - intros [[]|[]| |[] m e] [[]|[]| |[] m' e'] [[]|[]| |[] m'' e'']; simpl; auto; try discriminate;
      fold (Pos.compare m m') (Pos.compare m' m'') (Pos.compare m m''); intros [= H] [= H']; f_equal;
      destruct (Z.compare_spec e e'), (Z.compare_spec e' e''), (Z.compare_spec e e''); try discriminate; try lia; auto;
      destruct (Pos.compare_spec m m'), (Pos.compare_spec m' m''), (Pos.compare_spec m m''); try discriminate; try lia; auto.
  - intros [[]|[]| |[] m e] [[]|[]| |[] m' e'] [[]|[]| |[] m'' e'']; simpl; auto; try discriminate;
      fold (Pos.compare m m') (Pos.compare m' m'') (Pos.compare m m''); intros [= H];
      destruct (Z.compare_spec e e'); try discriminate; destruct (Pos.compare_spec m m'); try discriminate; subst; auto.
Defined.
