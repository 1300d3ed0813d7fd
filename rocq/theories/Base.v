(** * Base: what the code is generic over, and how panics are represented.

    The crate is generic over [T: Ord + Clone] and, for normalization,
    [T: Finite].  Each trait becomes a class with the functions the code calls and
    a class with their laws.  The model uses the first, theorems assume the
    second, so each holds for every lawful instance. *)

From Coq Require Import List Bool ZArith Lia.
From Coq Require Import ZifyBool ZifyComparison.
Import ListNotations.

(** ** Panics.  A Rust panic ([panic!], [unreachable!], [expect], [unwrap], a
    failing [debug_assert!]; src/bound.rs 234, src/interval.rs 1878, 1896,
    src/tine.rs 125-313, src/tine_tree.rs 142-1171) is the value [Panic]. *)
Inductive res (A : Type) : Type :=
| Ok (a : A)
| Panic.
Arguments Ok {A} a.
Arguments Panic {A}.

(** Evaluation order: the rest runs only if [r] did not panic. *)
Definition bind {A B} (r : res A) (f : A -> res B) : res B :=
  match r with Ok a => f a | Panic => Panic end.

Notation "'do' x <- e ; f" := (bind e (fun x => f))
  (at level 200, x pattern, e at level 100, f at level 200, right associativity).

(** [debug_assert!(b)], e.g. src/tine_tree.rs 145, src/tine.rs 125: checked only in
    builds with debug assertions. *)
Definition debug_assert (dbg b : bool) : res unit :=
  if dbg && negb b then Panic else Ok tt.

(** ** [T: Ord], the bound at src/raw_interval.rs 82 and throughout.  What the code
    calls: [std::cmp::Ord::cmp]. *)
Class Cmp (T : Type) : Type := { cmp : T -> T -> comparison }.

(** [std::cmp::Ord] with its documented laws: a total order whose [Equal] is
    equality ([T: Eq] is consistent with [T: Ord]). *)
Class Ord (T : Type) : Type := {
  ord_cmp :> Cmp T;
  cmp_eq : forall x y : T, cmp x y = Eq <-> x = y;
  cmp_antisym : forall x y : T, cmp y x = CompOpp (cmp x y);
  cmp_lt_trans : forall x y z : T, cmp x y = Lt -> cmp y z = Lt -> cmp x z = Lt
}.
#[global] Arguments ord_cmp {T} Ord : simpl never.

Section OrdOps.
  Context {T : Type} {O : Cmp T}.
  (** Rust's [<], [<=], [>], [>=], [==] on [T] (src/bound.rs 411-505,
      src/raw_interval.rs 175-183). *)
  Definition ltb (x y : T) : bool := match cmp x y with Lt => true | _ => false end.
  Definition leb (x y : T) : bool := match cmp x y with Gt => false | _ => true end.
  Definition gtb (x y : T) : bool := match cmp x y with Gt => true | _ => false end.
  Definition geb (x y : T) : bool := match cmp x y with Lt => false | _ => true end.
  Definition eqb (x y : T) : bool := match cmp x y with Eq => true | _ => false end.
  (** The same as propositions. *)
  Definition lt (x y : T) : Prop := cmp x y = Lt.
  Definition le (x y : T) : Prop := cmp x y <> Gt.
End OrdOps.

(** ** [T: Finite].  src/normalize.rs 26-38: what the code calls. *)
Class FiniteOps (T : Type) : Type := {
  MINIMUM : T;
  MAXIMUM : T;
  pred : T -> option T;
  succ : T -> option T
}.

(** The laws its documentation (src/normalize.rs 21-38) states:
    MINIMUM/MAXIMUM are the least and
    greatest values, [pred]/[succ] the adjacent ones ([None] exactly at the
    ends), and there are finitely many values. *)
Class Finite (T : Type) {O : Ord T} : Type := {
  finite_ops :> FiniteOps T;
  min_le : forall x : T, le MINIMUM x;
  max_ge : forall x : T, le x MAXIMUM;
  succ_none : forall x : T, succ x = None <-> x = MAXIMUM;
  succ_some : forall x y : T, succ x = Some y <-> (lt x y /\ forall z, lt x z -> le y z);
  pred_none : forall x : T, pred x = None <-> x = MINIMUM;
  pred_some : forall x y : T, pred x = Some y <-> (lt y x /\ forall z, lt z x -> le z y);
  values_finite : exists l : list T, forall x, In x l
}.
#[global] Arguments finite_ops {T O} Finite : simpl never.
