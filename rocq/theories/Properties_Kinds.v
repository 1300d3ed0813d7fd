(** * The kinds of every Interval value (C90)

    The constructors only make closed intervals (C19), but a deserialiser hands
    out any shape (C89).  What the classification functions answer for each. *)
From Coq Require Import List Bool ZArith Lia String.
From Verif Require Import Base OrdFacts Ints MBound MRaw MNormalize MTine MBTree MTineTree MInterval MSelection MSerde
  Spec Spec_Sel Instances Properties_Interval Properties_Selection.
Import ListNotations.
Local Open Scope list_scope.

Section Kinds.
  Context {T : Type} {O : Ord T}.
  (** The kinds of a bound. *)
  Definition is_incl (b : option (Bound T)) : Prop := exists x, b = Some (Include x).
  Definition is_excl (b : option (Bound T)) : Prop := exists x, b = Some (Exclude x).
  Definition is_inf (b : option (Bound T)) : Prop := b = Some Infinite.
  Implicit Type i : Interval T.
  Local Notation lb := interval_lower_bound.
  Local Notation ub := interval_upper_bound.

  Ltac bounds := repeat match goal with
      | H : exists _, _ |- _ => destruct H
      | H : _ /\ _ |- _ => destruct H
      | H : _ \/ _ |- _ => destruct H
      end; try discriminate; try congruence.
  Ltac kinds i := destruct i as [[]]; unfold is_incl, is_excl, is_inf, not; cbn;
    repeat split; intros; bounds; eauto;
    try solve [exfalso; match goal with H : _ -> False |- _ => apply H end; intros; bounds; eauto];
    try solve [left; repeat split; intros; bounds; eauto | right; repeat split; intros; bounds; eauto
              | right; left; repeat split; intros; bounds; eauto | right; right; repeat split; intros; bounds; eauto].

  (** Closed on a side: the bound there includes its point. *)
  Theorem C90_side_closed i :
    (interval_is_left_closed i = true <-> is_incl (lb i)) /\
    (interval_is_right_closed i = true <-> is_incl (ub i)) /\
    (interval_is_half_closed i = true <-> (is_incl (lb i) /\ ~ is_incl (ub i) \/ ~ is_incl (lb i) /\ is_incl (ub i))).
  Proof. kinds i. Qed.

  (** Bounded on a side: no infinite bound there. *)
  Theorem C90_side_bounded i :
    (interval_is_left_bounded i = true <-> ~ is_inf (lb i)) /\
    (interval_is_right_bounded i = true <-> ~ is_inf (ub i)) /\
    (interval_is_bounded i = true <-> ~ is_inf (lb i) /\ ~ is_inf (ub i)) /\
    (interval_is_half_bounded i = true <-> (is_inf (lb i) /\ ~ is_inf (ub i) \/ ~ is_inf (lb i) /\ is_inf (ub i))).
  Proof. kinds i. Qed.

  (** Empty: no bounds. *)
  Theorem C90_empty i :
    (interval_is_empty i = true <-> lb i = None) /\ (lb i = None <-> ub i = None) /\
    (interval_into_non_empty i = None <-> lb i = None) /\ (forall j, interval_into_non_empty i = Some j -> j = i) /\
    (interval_is_degenerate i = true -> exists p, lb i = Some (Include p) /\ ub i = Some (Include p)) /\
    interval_is_proper i = negb (interval_is_empty i || interval_is_degenerate i).
  Proof. unfold interval_into_non_empty. kinds i. Qed.

  (** What the questions about open and closed intervals answer. *)
  Theorem C90_open_exact i :
    (interval_is_open i = true <-> ~ (is_incl (lb i) /\ is_incl (ub i))) /\
    (interval_is_half_open i = true <-> lb i <> None /\ ~ (is_incl (lb i) /\ is_incl (ub i))) /\
    (interval_is_left_open i = true <-> is_excl (lb i) /\ is_incl (ub i) \/ is_inf (lb i)) /\
    (interval_is_right_open i = true <-> is_incl (lb i) /\ is_excl (ub i) \/ is_inf (ub i)) /\
    (interval_is_closed i = true <->
       lb i = None \/ is_incl (lb i) /\ is_incl (ub i) \/ is_inf (lb i) /\ is_inf (ub i)).
  Proof. kinds i. Qed.
End Kinds.
Print Assumptions C90_side_closed.
Print Assumptions C90_side_bounded.
Print Assumptions C90_empty.
Print Assumptions C90_open_exact.
Example C90_ex : interval_is_left_closed (mkInterval (RightOpen 2 8)) = true /\ interval_is_right_closed (mkInterval (RightOpen 2 8)) = false /\
  interval_is_half_closed (mkInterval (RightOpen 2 8)) = true /\ interval_is_half_bounded (mkInterval (UpFrom 2)) = true /\
  interval_is_empty (mkInterval (Closed 8 2)) = false /\ interval_into_non_empty (mkInterval (@Empty Z)) = None.
Proof. repeat split. Qed.

(** Read from a serialised form: (2, 8) is not left-open; (2, 8] counts as open
    and as half-open; the closed set (<-, 8] does not count as closed. *)
Theorem C90_open_refuted :
  exists i j k : Interval i8,
    interval_de (CTupleVariant "Open" [CInt 2; CInt 8]) = Some i /\ interval_is_left_open i = false /\ interval_is_right_open i = false /\
    interval_de (CTupleVariant "LeftOpen" [CInt 2; CInt 8]) = Some j /\ interval_is_open j = true /\
    interval_de (CNewtypeVariant "To" (CInt 8)) = Some k /\ interval_is_closed k = false /\ interval_is_open k = true.
Proof. do 3 eexists. repeat split. Qed.
Print Assumptions C90_open_refuted.
