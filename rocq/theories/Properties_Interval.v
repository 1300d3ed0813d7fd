(** * Properties of normalization and Interval: C15-C26 *)
From Coq Require Import List Bool ZArith Lia Sorted.
From Verif Require Import Base OrdFacts PFinite MBound MRaw MNormalize Ints MInterval Spec PRaw PRaw2
  PNorm PIter PInterval.
Import ListNotations.
Local Open Scope Z_scope.

(** Small names for [i8] values in the examples. *)
Definition v (z : Z) : i8 := int_of_Z z.
Lemma v_val z : -128 <= z <= 127 -> ival (v z) = z.
Proof. intros. unfold v. rewrite int_of_Z_val. apply wrap_id. lia. Qed.

(** ** C15 *)
Theorem C15_normalize_exact {T} {O : Ord T} {F : Finite T} (i : RawInterval T) :
  (forall x, raw_contains (normalized i) x = raw_contains i x) /\
  (normalized i = Empty \/ (exists p, normalized i = Point p) \/ (exists l u, normalized i = Closed l u)).
Proof.
  split; [intros x; apply normalized_contains|].
  generalize (normalized_shape i). destruct (normalized i); simpl; try tauto; intros _; eauto.
Qed.
Print Assumptions C15_normalize_exact.

Example C15_ex : normalized (RightOpen (v 3) (v 9)) = Closed (v 3) (v 8) /\
  normalized (UpTo (v (-128))) = Empty /\ normalized (Full : RawInterval i8) = Closed (v (-128)) (v 127).
Proof. vm_compute. auto. Qed.

(** ** C16 *)

(** With two points or more the representation is determined by the points;
    normalizing twice is normalizing once. *)
Theorem C16_normalize_canonical_partial {T} {O : Ord T} {F : Finite T} (i j : RawInterval T) (m n : T) :
  lt m n -> raw_contains i m = true -> raw_contains i n = true ->
  (normalized i = normalized j <-> forall x, raw_contains i x = raw_contains j x).
Proof.
  intros L Hm Hn. split.
  - intros E x. now rewrite <- (normalized_contains i), <- (normalized_contains j), E.
  - intros E.
    assert (K : exists a b, lt a b /\ least (points (normalized i)) a /\ greatest (points (normalized i)) b).
    { assert (Hm' := Hm). assert (Hn' := Hn). rewrite <- normalized_contains in Hm', Hn'.
      assert (S := normalized_shape i). unfold least, greatest. setoid_rewrite <- raw_contains_points.
      destruct (normalized i) as [|p| | | |a b| | | | |]; simpl in *; try tauto; try discriminate.
      - exfalso. order.
      - exists a, b. split; [order|]. split; (split; [order|intros; order]). }
    destruct K as (a & b & Hab & Ka & Kb).
    rewrite (closed_shape_two _ a b (normalized_shape i) Hab Ka Kb).
    symmetry. apply (closed_shape_two _ a b (normalized_shape j) Hab).
    + unfold least in *. setoid_rewrite <- raw_contains_points. setoid_rewrite <- raw_contains_points in Ka.
      setoid_rewrite normalized_contains. setoid_rewrite normalized_contains in Ka. setoid_rewrite <- E. exact Ka.
    + unfold greatest in *. setoid_rewrite <- raw_contains_points. setoid_rewrite <- raw_contains_points in Kb.
      setoid_rewrite normalized_contains. setoid_rewrite normalized_contains in Kb. setoid_rewrite <- E. exact Kb.
Qed.
Print Assumptions C16_normalize_canonical_partial.

Theorem C16_normalize_idempotent_partial {T} {O : Ord T} {F : Finite T} (i : RawInterval T) :
  normalized (normalized i) = normalized i.
Proof. apply normalized_idem. Qed.
Print Assumptions C16_normalize_idempotent_partial.

Example C16_ex : lt (v 4) (v 5) /\ raw_contains (Open (v 3) (v 6)) (v 4) = true /\
  raw_contains (Open (v 3) (v 6)) (v 5) = true /\
  normalized (Open (v 3) (v 6)) = normalized (LeftOpen (v 3) (v 5)).
Proof. vm_compute. auto. Qed.

(** Not canonical with one point, nor with none. *)
Theorem C16_normalize_refuted :
  (exists i j : RawInterval i8, raw_wf i /\ raw_wf j /\ (exists x, raw_contains i x = true) /\
     (forall x, raw_contains i x = raw_contains j x) /\ normalized i <> normalized j) /\
  (exists i j : RawInterval i8, raw_wf i /\ raw_wf j /\ (forall x, raw_contains i x = false) /\
     (forall x, raw_contains i x = raw_contains j x) /\ normalized i <> normalized j).
Proof.
  split.
  - exists (Open (v 3) (v 5)), (Point (v 4)). split; [reflexivity|]. split; [exact I|].
    split; [exists (v 4); reflexivity|]. split; [|vm_compute; discriminate].
    intros x. apply eq_true_iff_eq. rewrite !raw_contains_points. cbn [points].
    rewrite !int_lt_val, (v_val 3), (v_val 5) by lia. split.
    + intros H. apply int_ext. rewrite v_val; lia.
    + intros ->. rewrite v_val; lia.
  - exists (Open (v 3) (v 4)), Empty. split; [reflexivity|]. split; [exact I|].
    assert (H : forall x, raw_contains (Open (v 3) (v 4)) x = false).
    { intros x. apply not_true_iff_false. rewrite raw_contains_points. cbn [points].
      rewrite !int_lt_val, (v_val 3), (v_val 4) by lia. lia. }
    split; [exact H|]. split; [exact H|]. vm_compute. discriminate.
Qed.
Print Assumptions C16_normalize_refuted.

(** ** C17 *)

(** Denormalization keeps the points of every shape but [To] and [From] (which
    normalization never produces), *)
Theorem C17_denormalize_exact_partial {T} {O : Ord T} {F : Finite T} (i : RawInterval T) :
  (forall p, i <> To p /\ i <> From p) -> forall x, raw_contains (denormalized i) x = raw_contains i x.
Proof.
  intros H x. generalize (denormalized_contains i x). destruct i; auto.
  - now destruct (H p).
  - now destruct (H p).
Qed.
Print Assumptions C17_denormalize_exact_partial.

(** in particular of everything normalization returns, *)
Theorem C17_denormalize_normalized_partial {T} {O : Ord T} {F : Finite T} (i : RawInterval T) (x : T) :
  raw_contains (denormalized (normalized i)) x = raw_contains i x.
Proof.
  rewrite C17_denormalize_exact_partial; [apply normalized_contains|].
  intros p. generalize (normalized_shape i). destruct (normalized i); simpl; try tauto; split; discriminate.
Qed.
Print Assumptions C17_denormalize_normalized_partial.

Example C17_ex : denormalized (Closed (v 3) (v 8)) = Open (v 2) (v 9).
Proof. reflexivity. Qed.

(** and loses the end point of every [To] and [From]. *)
Theorem C17_denormalize_refuted {T} {O : Ord T} {F : Finite T} (p : T) :
  (raw_contains (To p) p = true /\ (pred p <> None -> raw_contains (denormalized (To p)) p = false)) /\
  (raw_contains (From p) p = true /\ (succ p <> None -> raw_contains (denormalized (From p)) p = false)).
Proof.
  split; (split; [simpl; order|]).
  - simpl. destruct (pred p) eqn:E; [|congruence]. intros _. simpl. forder.
  - simpl. destruct (succ p) eqn:E; [|congruence]. intros _. simpl. forder.
Qed.
Print Assumptions C17_denormalize_refuted.
(** What is left of them: the values below the predecessor of [p] (above its
    successor), so the two outermost values are lost. *)
Theorem C17_denormalize_half_partial {T} {O : Ord T} {F : Finite T} (p x : T) :
  (raw_contains (denormalized (To p)) x = true <-> exists q, pred p = Some q /\ lt x q) /\
  (raw_contains (denormalized (From p)) x = true <-> exists q, succ p = Some q /\ lt q x).
Proof.
  split; simpl.
  - destruct (pred p) as [q|]; simpl; split; try discriminate; [intros H; exists q; split; auto; order|intros (k & [= <-] & H); order|intros (k & H & _); discriminate].
  - destruct (succ p) as [q|]; simpl; split; try discriminate; [intros H; exists q; split; auto; order|intros (k & [= <-] & H); order|intros (k & H & _); discriminate].
Qed.
Print Assumptions C17_denormalize_half_partial.
(** The result always has open or infinite ends. *)
Theorem C17_denormalize_open {T} {O : Ord T} {F : Finite T} (i : RawInterval T) (x : T) :
  raw_lower_bound (denormalized i) <> Some (Include x) /\ raw_upper_bound (denormalized i) <> Some (Include x).
Proof.
  destruct i; simpl; split; try discriminate; repeat (destruct (pred _); simpl; try discriminate); repeat (destruct (succ _); simpl; try discriminate).
Qed.
Print Assumptions C17_denormalize_open.
Example C17_refuted_ex : denormalized (To (v 5)) = UpTo (v 4) /\ pred (v 5) <> None.
Proof. split; [reflexivity|]. vm_compute. discriminate. Qed.

(** ** C18: the integer implementations, as written in the source. *)
Theorem C18_integer_finite_lawful {lo hi : Z} {I : IntType lo hi} (dbg : bool) (x : int lo hi) :
  (forall y, le int_MIN y /\ le y int_MAX) /\
  (exists o, int_succ_code dbg x = Ok o /\
     (o = None <-> x = int_MAX) /\ (forall y, o = Some y <-> ival y = ival x + 1)) /\
  (exists o, int_pred_code dbg x = Ok o /\
     (o = None <-> x = int_MIN) /\ (forall y, o = Some y <-> ival y = ival x - 1)) /\
  (forall y z, succ x = Some y -> ~ (lt x z /\ lt z y)) /\
  (forall y z, pred x = Some y -> ~ (lt y z /\ lt z x)).
Proof.
  split; [|split; [|split; [|split]]].
  - intros y. rewrite !int_le_val, int_min_val, int_max_val. apply int_bounds.
  - exists (int_succ x). split; [apply int_succ_ok|]. split; [exact (succ_none x)|]. intros y.
    change (int_succ x) with (succ x). rewrite succ_some. rewrite int_lt_val.
    pose proof (int_bounds x). pose proof (int_bounds y). split.
    + intros [H1 H2]. assert (E : ival (int_of_Z (lo:=lo) (hi:=hi) (ival x + 1)) = ival x + 1)
        by (rewrite int_of_Z_val; apply wrap_id; lia).
      specialize (H2 (int_of_Z (ival x + 1))). rewrite int_lt_val, int_le_val, E in H2. lia.
    + intros E. split; [lia|]. intros z. rewrite int_lt_val, int_le_val. lia.
  - exists (int_pred x). split; [apply int_pred_ok|]. split; [exact (pred_none x)|]. intros y.
    change (int_pred x) with (pred x). rewrite pred_some. rewrite int_lt_val.
    pose proof (int_bounds x). pose proof (int_bounds y). split.
    + intros [H1 H2]. assert (E : ival (int_of_Z (lo:=lo) (hi:=hi) (ival x - 1)) = ival x - 1)
        by (rewrite int_of_Z_val; apply wrap_id; lia).
      specialize (H2 (int_of_Z (ival x - 1))). rewrite int_lt_val, int_le_val, E in H2. lia.
    + intros E. split; [lia|]. intros z. rewrite int_lt_val, int_le_val. lia.
  - intros y z H [H1 H2]. apply succ_some in H as [_ H]. specialize (H z H1).
    rewrite int_lt_val, int_le_val in *. lia.
  - intros y z H [H1 H2]. apply pred_some in H as [_ H]. specialize (H z H2).
    rewrite int_lt_val, int_le_val in *. lia.
Qed.
Print Assumptions C18_integer_finite_lawful.
Example C18_ex : int_succ_code true (v 127) = Ok None /\ int_succ_code true (v 126) = Ok (Some (v 127)) /\
  int_pred_code false (v (-128)) = Ok None.
Proof. vm_compute. auto. Qed.

(** ** C19 *)
Theorem C19_intervals_closed {T} {O : Ord T} {F : Finite T} (i : Interval T) :
  reach false i ->
  (interval_lower_bound i = None \/ exists l, interval_lower_bound i = Some (Include l)) /\
  (interval_upper_bound i = None \/ exists u, interval_upper_bound i = Some (Include u)) /\
  (interval_lower_bound i = None <-> interval_is_empty i = true) /\
  (interval_upper_bound i = None <-> interval_is_empty i = true) /\
  interval_next i <> Panic /\ interval_next_back i <> Panic /\
  interval_is_closed i = true /\ interval_is_bounded i = true /\
  interval_is_left_bounded i = true /\ interval_is_right_bounded i = true /\
  interval_is_left_open i = false /\ interval_is_right_open i = false /\ interval_is_half_open i = false /\
  interval_is_half_closed i = false /\ interval_is_half_bounded i = false /\
  interval_is_open i = interval_is_empty i /\
  interval_is_left_closed i = negb (interval_is_empty i) /\
  interval_is_right_closed i = negb (interval_is_empty i).
Proof.
  intros R. apply reach_tight, tight_shape in R. destruct i as [r].
  unfold interval_lower_bound, interval_upper_bound, interval_next, interval_next_back,
    interval_lower_bound, interval_upper_bound.
  destruct r as [|p| | | |l u| | | | |]; simpl in R; try tauto; cbn -[interval_minus];
    repeat split; try discriminate; eauto.
Qed.
Print Assumptions C19_intervals_closed.
Example C19_ex : reach false (interval_unbounded_from (v 7)) /\
  interval_upper_bound (interval_unbounded_from (v 7)) = Some (Include (v 127)).
Proof. split; [constructor|reflexivity]. Qed.

(** ** C20 *)
Theorem C20_constructors_exact {T} {O : Ord T} {F : Finite T} (x : T) :
  (forall l u, interval_contains (interval_new l u) x = true <-> (above l x /\ below u x) \/ mixed_at l u x) /\
  (interval_contains interval_empty x = false) /\
  (interval_contains interval_full x = true) /\
  (forall p, interval_contains (interval_point p) x = true <-> x = p) /\
  (forall p, interval_contains (interval_from_point p) x = true <-> x = p) /\
  (forall r, interval_contains (interval_from_raw r) x = true <-> points r x) /\
  (forall l u, interval_contains (interval_open l u) x = true <-> lt l x /\ lt x u) /\
  (forall l u, interval_contains (interval_closed l u) x = true <-> le l x /\ le x u) /\
  (forall l u, l <> u -> interval_contains (interval_left_open l u) x = true <-> lt l x /\ le x u) /\
  (forall l u, l <> u -> interval_contains (interval_right_open l u) x = true <-> le l x /\ lt x u) /\
  (forall l u, l <> u -> interval_contains (interval_right_closed l u) x = true <-> lt l x /\ le x u) /\
  (forall l u, l <> u -> interval_contains (interval_left_closed l u) x = true <-> le l x /\ lt x u) /\
  (forall p, interval_contains (interval_left_open p p) x = true <-> x = p) /\
  (forall p, interval_contains (interval_right_open p p) x = true <-> x = p) /\
  (forall p, interval_contains (interval_unbounded_from p) x = true <-> le p x) /\
  (forall p, interval_contains (interval_unbounded_to p) x = true <-> le x p) /\
  (forall p, interval_contains (interval_unbounded_up_from p) x = true <-> lt p x) /\
  (forall p, interval_contains (interval_unbounded_up_to p) x = true <-> lt x p).
Proof.
  unfold interval_contains, interval_new, interval_empty, interval_full, interval_point, interval_from_point,
    interval_from_raw, interval_open, interval_closed, interval_left_open, interval_right_open,
    interval_right_closed, interval_left_closed, interval_left_open, interval_right_open,
    interval_unbounded_from, interval_unbounded_to, interval_unbounded_up_from, interval_unbounded_up_to.
  cbn [interval_raw]. repeat setoid_rewrite normalized_contains.
  split; [intros; apply raw_new_contains|]. split; [reflexivity|]. split; [reflexivity|].
  split; [intros p; exact (raw_contains_points (Point p) x)|].
  split; [intros p; exact (raw_contains_points (Point p) x)|].
  split; [intros r; exact (raw_contains_points r x)|].
  unfold raw_open, raw_closed, raw_left_open, raw_right_open.
  repeat match goal with |- _ /\ _ => split end; intros;
    try (match goal with |- context [cmp ?a ?b] => destruct (cmp a b) eqn:? end); simpl in *; order.
Qed.
Print Assumptions C20_constructors_exact.

Theorem C20_operations_exact {T} {O : Ord T} {F : Finite T} (i j : Interval T) (x : T) :
  reach true i -> reach true j ->
  (interval_contains (interval_intersect i j) x = interval_contains i x && interval_contains j x) /\
  (some_icontains (interval_union i j) x <-> interval_contains i x = true \/ interval_contains j x = true) /\
  (some_icontains (interval_minus i j) x <-> interval_contains i x = true /\ interval_contains j x = false) /\
  (some_icontains (interval_complement i) x <-> interval_contains i x = false) /\
  (interval_contains (interval_enclose i j) x = true <->
     exists y z, (interval_contains i y = true \/ interval_contains j y = true) /\
                 (interval_contains i z = true \/ interval_contains j z = true) /\ le y x /\ le x z) /\
  interval_closure i = i.
Proof.
  intros Ri Rj. apply reach_solid in Ri, Rj.
  split; [apply interval_intersect_contains|].
  split; [apply interval_union_contains; auto using solid_tight|].
  split; [apply interval_minus_contains|].
  split; [apply interval_complement_contains|].
  split; [now apply interval_enclose_contains|].
  apply interval_closure_id. now apply solid_shape.
Qed.
Print Assumptions C20_operations_exact.

(** Intersection, difference and complement are exact even for the vacuous
    intervals that [reach true] leaves out; union too if either side has a
    point. *)
Theorem C20_operations_exact_vacuous_partial {T} {O : Ord T} {F : Finite T} (i j : Interval T) (x : T) :
  reach false i -> reach false j ->
  (interval_contains (interval_intersect i j) x = interval_contains i x && interval_contains j x) /\
  (some_icontains (interval_minus i j) x <-> interval_contains i x = true /\ interval_contains j x = false) /\
  (some_icontains (interval_complement i) x <-> interval_contains i x = false) /\
  ((exists y, interval_contains i y = true \/ interval_contains j y = true) ->
   some_icontains (interval_union i j) x <-> interval_contains i x = true \/ interval_contains j x = true).
Proof.
  intros Ri Rj. apply reach_tight in Ri, Rj.
  split; [apply interval_intersect_contains|].
  split; [apply interval_minus_contains|].
  split; [apply interval_complement_contains|].
  intros (y & Hy). apply interval_union_contains; auto.
  unfold interval_contains in Hy.
  destruct Hy as [Hy|Hy]; [left; clear Rj|right; clear Ri].
  - destruct (interval_raw i); simpl in *; try tauto. destruct Ri; forder.
  - destruct (interval_raw j); simpl in *; try tauto. destruct Rj; forder.
Qed.
Print Assumptions C20_operations_exact_vacuous_partial.

Example C20_ex :
  reach true (interval_left_open (v 0) (v 4)) /\ reach true (interval_from_range (SRange (v 3) (v 9))) /\
  interval_intersect (interval_left_open (v 0) (v 4)) (interval_from_range (SRange (v 3) (v 9)))
    = interval_closed (v 3) (v 4) /\
  reach false (interval_open (v 3) (v 4)).
Proof. split; [constructor|]. split; [constructor|]. split; [reflexivity|]. constructor. discriminate. Qed.

(** Two vacuous intervals: the union of (3,4) and (4,5) contains 4; and
    enclosing (3,4) with the point 9 reaches down to 4. *)
Theorem C20_operations_refuted :
  (exists (i j : Interval i8) x, reach false i /\ reach false j /\
     interval_contains i x = false /\ interval_contains j x = false /\ some_icontains (interval_union i j) x) /\
  (exists (i j : Interval i8) x y, reach false i /\ reach false j /\
     (forall z, interval_contains i z = false) /\ (forall z, interval_contains j z = true <-> z = y) /\ x <> y /\
     interval_contains (interval_enclose i j) x = true).
Proof.
  assert (V : forall x, interval_contains (interval_open (v 3) (v 4)) x = false).
  { intros x. destruct (interval_contains _ x) eqn:E; auto.
    apply (C20_constructors_exact x) in E. rewrite !int_lt_val, (v_val 3), (v_val 4) in E by lia. lia. }
  split.
  - exists (interval_open (v 3) (v 4)), (interval_open (v 4) (v 5)), (v 4).
    split; [constructor; discriminate|]. split; [constructor; discriminate|].
    split; [reflexivity|]. split; [reflexivity|]. eexists. split; [left; reflexivity|reflexivity].
  - exists (interval_open (v 3) (v 4)), (interval_point (v 9)), (v 4), (v 9).
    split; [constructor; discriminate|]. split; [constructor|]. split; [exact V|].
    split; [intros z; apply (C20_constructors_exact z)|]. split; [vm_compute; discriminate|reflexivity].
Qed.
Print Assumptions C20_operations_refuted.

(** ** C21 *)
Theorem C21_is_empty_exact_partial {T} {O : Ord T} {F : Finite T} (i : Interval T) :
  reach true i -> (interval_is_empty i = true <-> forall x, interval_contains i x = false).
Proof. intros R. apply reach_solid in R. exact (solid_empty _ R). Qed.
Print Assumptions C21_is_empty_exact_partial.

(** With [gap] constructors allowed, one direction remains: *)
Theorem C21_is_empty_sound_partial {T} {O : Ord T} {F : Finite T} (i : Interval T) :
  interval_is_empty i = true -> forall x, interval_contains i x = false.
Proof. destruct i as [[]]; try discriminate. reflexivity. Qed.
Print Assumptions C21_is_empty_sound_partial.

Example C21_ex : reach true (interval_intersect (interval_closed (v 0) (v 3)) (interval_closed (v 4) (v 8))) /\
  interval_is_empty (interval_intersect (interval_closed (v 0) (v 3)) (interval_closed (v 4) (v 8))) = true.
Proof. split; [repeat constructor|reflexivity]. Qed.

(** (3,4) contains nothing but is not [is_empty]. *)
Theorem C21_is_empty_refuted :
  exists i : Interval i8, reach false i /\ (forall x, interval_contains i x = false) /\ interval_is_empty i = false.
Proof.
  exists (interval_open (v 3) (v 4)). split; [constructor; discriminate|]. split; [|reflexivity].
  intros x. destruct (interval_contains _ x) eqn:E; auto.
  apply (C20_constructors_exact x) in E. rewrite !int_lt_val, (v_val 3), (v_val 4) in E by lia. lia.
Qed.
Print Assumptions C21_is_empty_refuted.

(** ** C22 *)

(** Intervals with at least two points, or [is_empty] ones, are equal exactly
    when their points are. *)
Theorem C22_equality_partial {T} {O : Ord T} {F : Finite T} (i j : Interval T) :
  reach false i -> reach false j ->
  (exists m n, lt m n /\ interval_contains i m = true /\ interval_contains i n = true) ->
  (i = j <-> forall x, interval_contains i x = interval_contains j x).
Proof.
  intros Ri Rj (m & n & L & Hm & Hn). split; [now intros ->|]. intros E.
  apply reach_tight, tight_shape in Ri, Rj. unfold interval_contains in *. destruct i as [a], j as [b]. f_equal. simpl in *.
  rewrite <- (normalized_id a), <- (normalized_id b) by auto.
  now apply (C16_normalize_canonical_partial a b m n).
Qed.
Print Assumptions C22_equality_partial.
Theorem C22_equality_empty_partial {T} {O : Ord T} {F : Finite T} (i j : Interval T) :
  reach true i -> reach true j -> (forall x, interval_contains i x = false) ->
  (i = j <-> forall x, interval_contains i x = interval_contains j x).
Proof.
  intros Ri Rj E. split; [now intros ->|]. intros H.
  apply C21_is_empty_exact_partial in E; auto.
  assert (E' : interval_is_empty j = true).
  { apply C21_is_empty_exact_partial; auto. intros x. rewrite <- H. revert x. now apply C21_is_empty_exact_partial. }
  destruct i as [[]], j as [[]]; simpl in *; try discriminate. reflexivity.
Qed.
Print Assumptions C22_equality_empty_partial.
Example C22_ex : reach false (interval_open (v 3) (v 6)) /\ lt (v 4) (v 5) /\
  interval_contains (interval_open (v 3) (v 6)) (v 4) = true /\
  interval_contains (interval_open (v 3) (v 6)) (v 5) = true /\
  interval_open (v 3) (v 6) = interval_closed (v 4) (v 5).
Proof. split; [constructor; discriminate|]. vm_compute. auto. Qed.

(** (3,5) contains just 4 but differs from [Interval::point(4)]; the two even
    disagree on [is_degenerate]. *)
Theorem C22_equality_refuted :
  exists i j : Interval i8, reach true i /\ reach true j /\ i <> j /\
  (forall x, interval_contains i x = interval_contains j x) /\
  interval_is_degenerate i <> interval_is_degenerate j.
Proof.
  exists (interval_open (v 3) (v 5)), (interval_point (v 4)).
  split; [constructor; intros _; vm_compute; discriminate|]. split; [constructor|].
  split; [vm_compute; discriminate|]. split; [|vm_compute; discriminate].
  intros x. apply eq_true_iff_eq.
  destruct (C20_constructors_exact x) as (_ & _ & _ & -> & _ & _ & -> & _).
  rewrite !int_lt_val, (v_val 3), (v_val 5) by lia. split.
  - intros H. apply int_ext. rewrite v_val; lia.
  - intros ->. rewrite v_val; lia.
Qed.
Print Assumptions C22_equality_refuted.

(** ** C23 *)
Theorem C23_iteration_exact_partial {T} {O : Ord T} {F : Finite T} (i : Interval T) :
  reach false i -> (interval_is_empty i = true \/ exists x, interval_contains i x = true) ->
  exists l, lists l (ipoints i) /\
    drains interval_next (interval_iter i) l /\
    drains interval_next_back (interval_iter i) (rev l) /\
    forall sched, runs interval_next interval_next_back (interval_iter i) sched (deque_run l sched).
Proof.
  intros R H.
  assert (S : solid (interval_raw i)).
  { apply reach_tight in R. destruct H as [H|(x & H)].
    - unfold interval_is_empty in H. destruct (interval_raw i); simpl; auto; discriminate.
    - unfold interval_contains in H. destruct (interval_raw i); simpl in *; try tauto. destruct R; forder. }
  destruct (solid_lists i S) as (l & L). exists l. split; auto.
  assert (Rep : irep i l) by (split; auto).
  split; [now apply irep_drains|]. split; [now apply irep_drains_back|]. now apply irep_runs.
Qed.
Print Assumptions C23_iteration_exact_partial.

(** The hypothesis holds of everything made without [gap]s. *)
Theorem C23_iteration_exact_strict_partial {T} {O : Ord T} {F : Finite T} (i : Interval T) :
  reach true i ->
  exists l, lists l (ipoints i) /\
    drains interval_next (interval_iter i) l /\
    drains interval_next_back (interval_iter i) (rev l) /\
    forall sched, runs interval_next interval_next_back (interval_iter i) sched (deque_run l sched).
Proof.
  intros R. apply reach_solid in R. destruct (solid_lists i R) as (l & L). exists l. split; auto.
  assert (Rep : irep i l) by (split; auto).
  split; [now apply irep_drains|]. split; [now apply irep_drains_back|]. now apply irep_runs.
Qed.
Print Assumptions C23_iteration_exact_strict_partial.
Example C23_ex : reach true (interval_closed (v 3) (v 5)) /\
  runs interval_next interval_next_back (interval_iter (interval_closed (v 3) (v 5)))
    [Front; Back; Back; Front] [Some (v 3); Some (v 5); Some (v 4); None].
Proof. split; [constructor|]. repeat (econstructor; [vm_compute; reflexivity|]). constructor. Qed.

(** Iterating (3,4) yields 4, which it does not contain. *)
Theorem C23_iteration_refuted :
  exists (i : Interval i8) x, reach false i /\ interval_contains i x = false /\
  drains interval_next (interval_iter i) [x].
Proof.
  exists (interval_open (v 3) (v 4)), (v 4). split; [constructor; discriminate|]. split; [reflexivity|].
  eapply drains_cons; [vm_compute; reflexivity|]. eapply drains_nil. vm_compute. reflexivity.
Qed.
Print Assumptions C23_iteration_refuted.

(** ** C24 *)
Lemma int_list_length {lo hi} {I : IntType lo hi} (l : list (int lo hi)) (m n : int lo hi) :
  le m n -> lists l (fun x => le m x /\ le x n) -> Z.of_nat (length l) = ival n - ival m + 1.
Proof.
  intros H L.
  pose (f := fun k => int_of_Z (lo:=lo) (hi:=hi) (ival m + Z.of_nat k)).
  pose proof (int_bounds m). pose proof (int_bounds n). rewrite int_le_val in H.
  assert (V : forall k, (Z.of_nat k <= ival n - ival m) -> ival (f k) = ival m + Z.of_nat k).
  { intros k Hk. unfold f. rewrite int_of_Z_val. apply wrap_id. lia. }
  assert (L' : lists (map f (seq 0 (Z.to_nat (ival n - ival m + 1)))) (fun x => le m x /\ le x n)).
  { split.
    - assert (G : forall c s, Z.of_nat (s + c) <= ival n - ival m + 1 -> StronglySorted lt (map f (seq s c))).
      { induction c as [|c IH]; intros s Hs; simpl; constructor; [apply IH; lia|].
        apply Forall_forall. intros x Hx. apply in_map_iff in Hx as (k & <- & Hk). apply in_seq in Hk.
        rewrite int_lt_val, !V by lia. lia. }
      apply G. lia.
    - intros x. rewrite in_map_iff, !int_le_val. split.
      + intros (k & <- & Hk). apply in_seq in Hk. rewrite V by lia. lia.
      + intros B. exists (Z.to_nat (ival x - ival m)). split; [|apply in_seq; lia].
        apply int_ext. rewrite V; lia. }
  rewrite (lists_unique _ _ _ L L'), map_length, seq_length. lia.
Qed.

(** [size] of an interval from [m] to [n]: the number of points less one when
    that is a value of the type; otherwise a panic in debug builds and the
    wrapped difference in release builds. *)
Theorem C24_size_partial {lo hi} {I : IntType lo hi} (dbg : bool) (i : Interval (int lo hi)) (m n : int lo hi) (l : list (int lo hi)) :
  reach true i -> least (ipoints i) m -> greatest (ipoints i) n -> lists l (ipoints i) ->
  Z.of_nat (length l) = ival n - ival m + 1 /\
  (lo <= ival n - ival m <= hi ->
    exists d, interval_size (int_sub dbg) i = Ok (Some d) /\ ival d = ival n - ival m) /\
  (~ (lo <= ival n - ival m <= hi) ->
    interval_size (int_sub true) i = Panic /\
    exists d, interval_size (int_sub false) i = Ok (Some d) /\
      ival d <> ival n - ival m /\ exists k, ival d = ival n - ival m + k * (hi - lo + 1)).
Proof.
  intros R Lm Gn L. apply reach_solid in R.
  destruct (solid_extremes i m n R Lm Gn) as (La & Ub & Hab).
  assert (P : forall y, ipoints i y <-> le m y /\ le y n) by (intros; now apply bounded_contains).
  assert (S : forall dbg, interval_size (int_sub dbg) i = do d <- int_sub dbg n m; Ok (Some d)).
  { intros d. unfold interval_size, interval_infimum, interval_supremum, raw_infimum, raw_supremum. now rewrite La, Ub. }
  split; [|split].
  - apply int_list_length; auto. destruct L as [L1 L2]. split; auto. intros x. rewrite L2. apply P.
  - intros B. exists (int_of_Z (ival n - ival m)). rewrite S. unfold int_sub.
    assert (C : (lo <=? ival n - ival m) && (ival n - ival m <=? hi) = true) by lia.
    rewrite C, andb_false_r. simpl. split; auto. rewrite int_of_Z_val. apply wrap_id. lia.
  - intros B. rewrite !S. unfold int_sub.
    assert (C : (lo <=? ival n - ival m) && (ival n - ival m <=? hi) = false) by lia.
    rewrite C. simpl. split; auto. exists (int_of_Z (ival n - ival m)). split; auto.
    pose proof (int_bounds (int_of_Z (lo:=lo) (hi:=hi) (ival n - ival m))) as D.
    split; [intros Q; rewrite Q in D; lia|].
    rewrite int_of_Z_val. unfold wrap. exists (- ((ival n - ival m - lo) / (hi - lo + 1))).
    unfold IntType in I. pose proof (Z.div_mod (ival n - ival m - lo) (hi - lo + 1)). lia.
Qed.
Print Assumptions C24_size_partial.

(** For unsigned types the size is always right; [is_empty] has no size. *)
Theorem C24_size_unsigned_partial {hi} {I : IntType 0 hi} (dbg : bool) (i : Interval (int 0 hi)) (l : list (int 0 hi)) :
  reach true i -> lists l (ipoints i) ->
  match l with
  | [] => interval_size (int_sub dbg) i = Ok None
  | _ :: _ => exists d, interval_size (int_sub dbg) i = Ok (Some d) /\ ival d = Z.of_nat (length l) - 1
  end.
Proof.
  intros R L. assert (S := reach_solid _ R).
  destruct (solid_cases _ S) as [E|(a & b & La & Ub & Hab)].
  - destruct l as [|x l].
    + unfold interval_size, interval_infimum, raw_infimum. now rewrite E.
    + destruct L as [_ L]. specialize (proj1 (L x) (or_introl eq_refl)). unfold ipoints, interval_contains. now rewrite E.
  - destruct (bounds_extremes i a b La Ub Hab) as [Lm Gn].
    destruct (C24_size_partial dbg i a b l) as (H1 & H2 & _); auto.
    pose proof (int_bounds a). pose proof (int_bounds b). rewrite int_le_val in Hab.
    destruct H2 as (d & H2 & H3); [lia|].
    destruct l as [|x l]; [simpl in H1; lia|]. exists d. split; auto. lia.
Qed.
Print Assumptions C24_size_unsigned_partial.
Theorem C24_size_empty {T} {O : Ord T} {F : Finite T} sub (i : Interval T) :
  reach false i -> (interval_size sub i = Ok None <-> interval_is_empty i = true).
Proof.
  intros R. apply reach_tight in R. unfold interval_size, interval_infimum, interval_supremum, raw_infimum, raw_supremum, interval_is_empty.
  destruct (interval_raw i); simpl in *; try tauto.
  - destruct (sub p p); simpl; split; discriminate.
  - destruct (sub r l); simpl; split; discriminate.
Qed.
Print Assumptions C24_size_empty.
Example C24_ex : reach true (interval_closed (v 3) (v 9)) /\
  interval_size (int_sub true) (interval_closed (v 3) (v 9)) = Ok (Some (v 6)).
Proof. split; [constructor|reflexivity]. Qed.

(** [-100, 100] in [i8]: panic in debug builds, -56 in release builds. *)
Theorem C24_size_refuted :
  exists i : Interval i8, reach true i /\ interval_size (int_sub true) i = Panic /\
  interval_size (int_sub false) i = Ok (Some (v (-56))).
Proof. exists (interval_closed (v (-100)) (v 100)). split; [constructor|]. vm_compute. auto. Qed.
Print Assumptions C24_size_refuted.

(** ** C25 *)
Theorem C25_ranges_exact_partial {T} {O : Ord T} {F : Finite T} (r : StdRange T) (x : T) :
  (forall a, r <> SRange a a) ->
  (interval_contains (interval_from_range r) x = true <-> in_range r x).
Proof.
  intros H. unfold interval_contains. destruct r; cbn [interval_from_range interval_raw]; rewrite normalized_contains.
  - assert (a <> b) by (intros ->; eapply H; reflexivity).
    unfold raw_right_open. destruct (cmp a b) eqn:E; simpl; order.
  - simpl; order.
  - simpl; order.
  - simpl; order.
  - simpl; tauto.
Qed.
Print Assumptions C25_ranges_exact_partial.
Example C25_ex : (forall a, SRange (v 3) (v 9) <> SRange a a) /\
  interval_from_range (SRange (v 3) (v 9)) = interval_closed (v 3) (v 8).
Proof. split; [|reflexivity]. intros a [= E1 E2]. assert (ival (v 3) = ival (v 9)) by congruence. now rewrite !v_val in H by lia. Qed.

(** Every empty range [a..a] becomes the one-point interval of [a]. *)
Theorem C25_ranges_refuted {T} {O : Ord T} {F : Finite T} (a : T) :
  interval_contains (interval_from_range (SRange a a)) a = true /\ ~ in_range (SRange a a) a.
Proof.
  unfold interval_contains. cbn [interval_from_range interval_raw]. rewrite normalized_contains.
  unfold raw_right_open. rewrite cmp_refl. simpl. order.
Qed.
Print Assumptions C25_ranges_refuted.

(** ** C26 *)

(** The pieces of a union: none for two empty intervals, one if the two share
    a point or one is empty, otherwise the two operands. *)
Theorem C26_union_pieces_partial {T} {O : Ord T} {F : Finite T} (i j : Interval T) :
  reach true i -> reach true j ->
  (interval_is_empty i = true -> interval_is_empty j = true -> interval_union i j = []) /\
  (interval_is_empty i = true -> interval_is_empty j = false -> interval_union i j = [j]) /\
  (interval_is_empty i = false -> interval_is_empty j = true -> interval_union i j = [i]) /\
  (interval_is_empty i = false -> interval_is_empty j = false ->
    ((exists x, interval_contains i x = true /\ interval_contains j x = true) ->
      interval_union i j = [interval_enclose i j]) /\
    ((forall x, interval_contains i x = true -> interval_contains j x = false) ->
      interval_union i j = [i; j])).
Proof.
  intros Ri Rj. apply reach_solid in Ri, Rj. destruct i as [a], j as [b]. simpl in Ri, Rj.
  unfold interval_union, raw_union, interval_is_empty, interval_contains. cbn [interval_raw].
  change (match a with Empty => true | _ => false end) with (raw_is_empty a).
  change (match b with Empty => true | _ => false end) with (raw_is_empty b).
  split; [intros -> ->; auto|].
  split; [intros -> ->; simpl; now rewrite normalized_id by now apply solid_shape|].
  split; [intros -> ->; simpl; now rewrite normalized_id by now apply solid_shape|].
  intros Ea Eb. rewrite Ea, Eb. split.
  - intros (x & Hx & Hy). assert (M : raw_intersects a b = true).
    { apply raw_intersects_covers. exists (Pos.At x). now rewrite !covers_At. }
    rewrite M. simpl. unfold interval_enclose, interval_from_raw. simpl. now rewrite normalized_idem.
  - intros H.
    assert (M : meets a b = false).
    { destruct (meets a b) eqn:M; auto. exfalso. destruct (solid_meets a b Ri Rj M) as (x & Hx & Hy).
      rewrite H in Hy; [discriminate|auto]. }
    unfold meets in M. rewrite M. simpl. now rewrite !normalized_id by now apply solid_shape.
Qed.
Print Assumptions C26_union_pieces_partial.
Example C26_ex : reach true (interval_closed (v 0) (v 4)) /\ reach true (interval_closed (v 4) (v 6)) /\
  interval_union (interval_closed (v 0) (v 4)) (interval_closed (v 4) (v 6)) = [interval_closed (v 0) (v 6)].
Proof. split; [constructor|]. split; [constructor|reflexivity]. Qed.

(** Neighbours without a common point are not merged. *)
Theorem C26_union_refuted :
  exists (i j : Interval i8), reach true i /\ reach true j /\
  interval_union i j = [interval_closed (v 0) (v 4); interval_closed (v 5) (v 6)] /\ succ (v 4) = Some (v 5).
Proof.
  exists (interval_closed (v 0) (v 4)), (interval_closed (v 5) (v 6)).
  split; [constructor|]. split; [constructor|]. split; reflexivity.
Qed.
Print Assumptions C26_union_refuted.
