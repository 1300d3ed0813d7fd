(** * Properties of Interval accessors and classification, interval algebra and Bound: C62-C66 *)
From Coq Require Import List Bool ZArith Lia Sorted.
From Verif Require Import Base OrdFacts Pos PFinite MBound MRaw MNormalize Ints MInterval Spec Spec_More Instances PRaw PRaw2
  PNorm PIter PInterval Properties_Raw Properties_Interval.
Import ListNotations.
Local Open Scope Z_scope.
#[local] Arguments cmp : simpl never.

(** ** C62: the bounds of an Interval are its extreme points *)
Theorem C62_bounds_partial {T} {O : Ord T} {F : Finite T} (i : Interval T) : reach true i ->
  (forall m, interval_lower_bound i = Some (Include m) <-> least (ipoints i) m) /\
  (forall m, interval_infimum i = Some m <-> least (ipoints i) m) /\
  (forall m, interval_upper_bound i = Some (Include m) <-> greatest (ipoints i) m) /\
  (forall m, interval_supremum i = Some m <-> greatest (ipoints i) m) /\
  (interval_infimum i = None <-> forall x, interval_contains i x = false) /\
  (interval_supremum i = None <-> forall x, interval_contains i x = false).
Proof.
  intros R. apply reach_solid in R.
  unfold interval_lower_bound, interval_infimum, interval_upper_bound, interval_supremum, raw_infimum, raw_supremum.
  destruct (solid_cases _ R) as [E|(l & u & L & U & H)].
  - assert (N : forall x, ~ ipoints i x) by (intros x; unfold ipoints, interval_contains; now rewrite E).
    rewrite E. simpl. unfold interval_contains. rewrite E. simpl.
    split; [intros m|split; [intros m|split; [intros m|split; [intros m|split; [tauto|tauto]]]]];
      (split; [discriminate|]); intros [H _]; now apply N in H.
  - rewrite L, U. destruct (bounds_extremes i l u L U H) as [Hl Hu].
    assert (Ul : forall m, least (ipoints i) m -> l = m).
    { intros m [H1 H2]. destruct Hl as [H3 H4]. specialize (H2 l H3). specialize (H4 m H1). order. }
    assert (Uu : forall m, greatest (ipoints i) m -> u = m).
    { intros m [H1 H2]. destruct Hu as [H3 H4]. specialize (H2 u H3). specialize (H4 m H1). order. }
    assert (P : interval_contains i l = true) by apply Hl.
    split; [intros m|split; [intros m|split; [intros m|split; [intros m|split]]]].
    + split; [injection 1 as <-; auto|]. intros K. apply Ul in K. now subst.
    + split; [injection 1 as <-; auto|]. intros K. apply Ul in K. now subst.
    + split; [injection 1 as <-; auto|]. intros K. apply Uu in K. now subst.
    + split; [injection 1 as <-; auto|]. intros K. apply Uu in K. now subst.
    + split; [discriminate|]. intros K. now rewrite K in P.
    + split; [discriminate|]. intros K. now rewrite K in P.
Qed.
Print Assumptions C62_bounds_partial.
Example C62_ex : reach true (interval_open (v 3) (v 9)) /\ interval_infimum (interval_open (v 3) (v 9)) = Some (v 4) /\
  interval_supremum (interval_unbounded_from (v 3)) = Some (v 127).
Proof. split; [constructor; discriminate|]. split; reflexivity. Qed.

(** The open pair of neighbours (3,4) contains nothing but has bounds, in the
    wrong order. *)
Theorem C62_bounds_refuted :
  exists i : Interval i8, reach false i /\ (forall x, interval_contains i x = false) /\
    interval_infimum i = Some (v 4) /\ interval_supremum i = Some (v 3).
Proof.
  exists (interval_open (v 3) (v 4)). split; [constructor; discriminate|]. split; [|split; reflexivity].
  intros x. destruct (interval_contains _ x) eqn:E; auto.
  apply (C20_constructors_exact x) in E. rewrite !int_lt_val, (v_val 3), (v_val 4) in E by lia. lia.
Qed.
Print Assumptions C62_bounds_refuted.

(** ** C63: is_degenerate, is_proper, into_non_empty *)

(** What holds of every strictly built interval: [is_degenerate] only of
    one-point intervals, [is_proper] of all with two points; neither exactly
    for [is_empty] ones, and those two are never both true. *)
Theorem C63_classes_partial {T} {O : Ord T} {F : Finite T} (i : Interval T) : reach true i ->
  (interval_is_degenerate i = true -> exactly_one (ipoints i)) /\
  (two_members (ipoints i) -> interval_is_proper i = true /\ interval_is_degenerate i = false) /\
  (interval_is_proper i = true -> exists x, ipoints i x) /\
  (interval_is_proper i || interval_is_degenerate i = negb (interval_is_empty i)) /\
  (interval_is_proper i && interval_is_degenerate i = false) /\
  (interval_into_non_empty i = None <-> forall x, ~ ipoints i x) /\
  (forall j, interval_into_non_empty i = Some j -> j = i /\ exists x, ipoints i x).
Proof.
  intros R. assert (Em := C21_is_empty_exact_partial i R). apply reach_solid in R.
  assert (X : interval_is_empty i = false -> exists x, ipoints i x).
  { intros E. destruct (solid_cases _ R) as [E'|(l & u & L & U & H)]; [unfold interval_is_empty in E; now rewrite E' in E|].
    exists l. apply (bounds_extremes i l u L U H). }
  assert (Em' : interval_is_empty i = true <-> forall x, ~ ipoints i x).
  { rewrite Em. unfold ipoints. split; intros H x; specialize (H x); [congruence|now apply not_true_iff_false]. }
  split; [|split; [|split; [|split; [|split; [|split]]]]].
  - unfold interval_is_degenerate, ipoints, interval_contains. destruct (interval_raw i) as [|p| | | | | | | | |] eqn:E; try discriminate.
    intros _. exists p. simpl. split; [order|]. intros y Hy. order.
  - intros (x & y & Hx & Hy & N). unfold interval_is_proper, interval_is_degenerate, ipoints, interval_contains in *.
    destruct (interval_raw i) as [|p| | | | | | | | |] eqn:E; auto; simpl in *; try discriminate.
    exfalso. apply N. order.
  - intros H. apply X. unfold interval_is_proper, interval_is_empty in *. destruct (interval_raw i); auto; discriminate.
  - unfold interval_is_proper, interval_is_degenerate, interval_is_empty. destruct (interval_raw i); reflexivity.
  - unfold interval_is_proper, interval_is_degenerate, interval_is_empty. destruct (interval_raw i); reflexivity.
  - unfold interval_into_non_empty. rewrite <- Em'. destruct (interval_is_empty i); split; congruence.
  - unfold interval_into_non_empty. intros j. destruct (interval_is_empty i) eqn:E; [discriminate|].
    injection 1 as <-. auto.
Qed.
Print Assumptions C63_classes_partial.
Example C63_ex : reach true (interval_closed (v 4) (v 4)) /\ interval_is_degenerate (interval_closed (v 4) (v 4)) = true /\
  interval_is_proper (interval_closed (v 4) (v 6)) = true.
Proof. split; [constructor|]. split; reflexivity. Qed.

(** (3,5) contains exactly the point 4 but is reported proper and not
    degenerate; (3,4) contains nothing and is reported proper. *)
Theorem C63_classes_refuted :
  (exists i : Interval i8, reach true i /\ exactly_one (ipoints i) /\ interval_is_degenerate i = false /\ interval_is_proper i = true) /\
  (exists i : Interval i8, reach false i /\ (forall x, ~ ipoints i x) /\ interval_is_proper i = true /\ interval_into_non_empty i = Some i).
Proof.
  split.
  - exists (interval_open (v 3) (v 5)).
    assert (P : forall x, ipoints (interval_open (v 3) (v 5)) x <-> x = v 4).
    { intros x. unfold ipoints. rewrite (proj1 (proj2 (C20_constructors_exact x))) || idtac.
      split.
      - intros H. apply (C20_constructors_exact x) in H. rewrite !int_lt_val, (v_val 3), (v_val 5) in H by lia.
        apply int_ext. rewrite v_val; lia.
      - intros ->. reflexivity. }
    split; [constructor; intros _; vm_compute; discriminate|].
    split; [exists (v 4); split; [now apply P|intros y Hy; now apply P]|]. split; reflexivity.
  - exists (interval_open (v 3) (v 4)). split; [constructor; discriminate|].
    split; [|split; reflexivity]. intros x H.
    apply (C20_constructors_exact x) in H. rewrite !int_lt_val, (v_val 3), (v_val 4) in H by lia. lia.
Qed.
Print Assumptions C63_classes_refuted.

(** ** C64: intersects and is_adjacent_to of Intervals *)
Theorem C64_intersects {T} {O : Ord T} {F : Finite T} (i j : Interval T) : reach false i -> reach false j ->
  (interval_intersects i j = true <-> exists x, interval_contains i x = true /\ interval_contains j x = true).
Proof.
  intros Ri Rj. apply reach_tight, tight_shape in Ri, Rj.
  apply C03_intersects_exact_closed_partial; [destruct (interval_raw i)|destruct (interval_raw j)]; simpl in *; tauto.
Qed.
Print Assumptions C64_intersects.

(** "Shares a bound": the greatest value of one is the least value of the
    other. *)
Theorem C64_adjacent {T} {O : Ord T} {F : Finite T} (i j : Interval T) : reach true i -> reach true j ->
  (interval_is_adjacent_to i j = true <->
   exists m, (greatest (ipoints i) m /\ least (ipoints j) m) \/ (greatest (ipoints j) m /\ least (ipoints i) m)).
Proof.
  intros Ri Rj. assert (Bi := C62_bounds_partial i Ri). assert (Bj := C62_bounds_partial j Rj).
  destruct Bi as (Li & _ & Ui & _), Bj as (Lj & _ & Uj & _). unfold interval_lower_bound, interval_upper_bound in *.
  setoid_rewrite <- Li. setoid_rewrite <- Lj. setoid_rewrite <- Ui. setoid_rewrite <- Uj. clear Li Lj Ui Uj.
  apply reach_solid in Ri, Rj. unfold interval_is_adjacent_to, raw_is_adjacent_to.
  destruct (solid_cases _ Ri) as [->|(l & u & -> & -> & _)], (solid_cases _ Rj) as [->|(l' & u' & -> & -> & _)]; simpl.
  - split; [discriminate|]. intros (m & [[H _]|[H _]]); discriminate.
  - split; [discriminate|]. intros (m & [[H _]|[_ H]]); discriminate.
  - split; [discriminate|]. intros (m & [[_ H]|[H _]]); discriminate.
  - rewrite orb_true_iff, !eqb_iff. split.
    + intros [->| ->]; [exists u'|exists u]; auto.
    + intros (m & [[H1 H2]|[H1 H2]]); injection H1 as ->; injection H2 as ->; auto.
Qed.
Print Assumptions C64_adjacent.
Example C64_ex : interval_intersects (interval_open (v 3) (v 6)) (interval_closed (v 5) (v 8)) = true /\
  interval_intersects (interval_open (v 3) (v 5)) (interval_closed (v 5) (v 8)) = false /\
  interval_is_adjacent_to (interval_closed (v (-3)) (v 5)) (interval_closed (v 5) (v 15)) = true.
Proof. repeat split. Qed.

(** ** C65: algebra of interval operations, as equality *)
Theorem C65_raw_intersect {T} {O : Ord T} (a b c : RawInterval T) : raw_wf a ->
  raw_intersect a b = raw_intersect b a /\
  raw_intersect (raw_intersect a b) c = raw_intersect a (raw_intersect b c) /\
  raw_intersect a a = a /\ raw_intersect a Full = a /\ raw_intersect a Empty = Empty.
Proof.
  intros W. split; [|split; [|split; [|split]]].
  all: apply raw_ext; [first [apply raw_intersect_wf|exact W|exact I]|first [apply raw_intersect_wf|exact W|exact I]|].
  all: intros p; rewrite ?raw_intersect_covers.
  - apply andb_comm.
  - now rewrite andb_assoc.
  - apply andb_diag.
  - replace (covers Full p) with true; [apply andb_true_r|]. now destruct p.
  - apply andb_false_r.
Qed.
Print Assumptions C65_raw_intersect.

Theorem C65_raw_enclose {T} {O : Ord T} (a b c : RawInterval T) : raw_wf a -> raw_wf b -> raw_wf c ->
  raw_enclose a b = raw_enclose b a /\
  raw_enclose (raw_enclose a b) c = raw_enclose a (raw_enclose b c) /\
  raw_enclose a a = a /\ raw_enclose a Empty = a /\ raw_enclose a Full = Full /\
  raw_intersect a (raw_enclose a b) = a /\ raw_enclose a (raw_intersect a b) = a.
Proof.
  intros Wa Wb Wc. split; [apply raw_enclose_comm|].
  assert (Id : raw_enclose a a = a).
  { destruct (raw_bounds_cases a) as [(-> & _)|(l & u & L & U)]; [reflexivity|].
    rewrite (raw_enclose_bounds a a l u l u L U L U), least_union_idem, greatest_union_idem. now apply raw_new_bounds. }
  assert (Ab : raw_intersect a (raw_enclose a b) = a).
  { apply raw_ext; auto using raw_intersect_wf. intros p. rewrite raw_intersect_covers.
    destruct (covers a p) eqn:E; auto. now rewrite raw_enclose_covers_l. }
  assert (Bl : forall x y : RawInterval T, raw_wf x -> raw_wf y -> forall lx ux ly uy,
    raw_lower_bound x = Some lx -> raw_upper_bound x = Some ux -> raw_lower_bound y = Some ly -> raw_upper_bound y = Some uy ->
    raw_lower_bound (raw_enclose x y) = Some (least_union lx ly) /\ raw_upper_bound (raw_enclose x y) = Some (greatest_union ux uy)).
  { intros x y Wx Wy lx ux ly uy Lx Ux Ly Uy. rewrite (raw_enclose_bounds x y lx ux ly uy) by auto.
    apply raw_new_lower. apply enclose_pos_le. exact (raw_wf_pos x lx ux Wx Lx Ux). }
  split; [|split; [auto|split; [|split; [|split; [auto|]]]]].
  - destruct (raw_bounds_cases a) as [(-> & _)|(la & ua & La & Ua)].
    { rewrite !raw_enclose_empty_l; auto. now apply raw_enclose_wf. }
    destruct (raw_bounds_cases b) as [(-> & _)|(lb & ub & Lb & Ub)].
    { rewrite raw_enclose_empty_l, raw_enclose_empty_r; auto. }
    destruct (raw_bounds_cases c) as [(-> & _)|(lc & uc & Lc & Uc)].
    { rewrite !raw_enclose_empty_r; auto. now apply raw_enclose_wf. }
    destruct (Bl a b Wa Wb _ _ _ _ La Ua Lb Ub) as [L1 U1]. destruct (Bl b c Wb Wc _ _ _ _ Lb Ub Lc Uc) as [L2 U2].
    rewrite (raw_enclose_bounds _ c _ _ _ _ L1 U1 Lc Uc), (raw_enclose_bounds a _ _ _ _ _ La Ua L2 U2).
    now rewrite least_union_assoc, greatest_union_assoc.
  - now apply raw_enclose_empty_r.
  - rewrite raw_enclose_comm. apply raw_enclose_full_l.
  - destruct (raw_is_empty (raw_intersect a b)) eqn:E.
    { assert (K : raw_intersect a b = Empty) by (destruct (raw_intersect a b); try discriminate; reflexivity).
      rewrite K. now apply raw_enclose_empty_r. }
    rewrite raw_intersect_eq in E.
    destruct (raw_bounds_cases a) as [(-> & _)|(la & ua & La & Ua)]; [discriminate|].
    destruct (raw_bounds_cases b) as [(-> & _)|(lb & ub & Lb & Ub)]; [rewrite La, Ua in E; discriminate|].
    rewrite La, Ua, Lb, Ub in E. destruct (leb _ _) eqn:P in E; [|discriminate]. apply leb_iff in P.
    assert (Q : raw_intersect a b = raw_new (greatest_intersect la lb) (least_intersect ua ub)).
    { rewrite raw_intersect_eq, La, Ua, Lb, Ub. now rewrite (proj2 (leb_iff _ _) P). }
    destruct (raw_new_lower _ _ P) as [L1 U1]. rewrite Q.
    rewrite (raw_enclose_bounds a _ _ _ _ _ La Ua L1 U1).
    assert (X : least_union la (greatest_intersect la lb) = la).
    { clear. destruct la as [x|x|], lb as [y|y|]; simpl; auto; split_cmp; simpl; split_cmp; auto; try (f_equal; order); exfalso; order. }
    assert (Y : greatest_union ua (least_intersect ua ub) = ua).
    { clear. destruct ua as [x|x|], ub as [y|y|]; simpl; auto; split_cmp; simpl; split_cmp; auto; try (f_equal; order); exfalso; order. }
    rewrite X, Y. now apply raw_new_bounds.
Qed.
Print Assumptions C65_raw_enclose.

Example C65_ex1 : raw_wf (Open 0 5) /\ raw_intersect (Open 0 5) (raw_enclose (Open 0 5) (Closed 3 9)) = Open 0 5 /\
  raw_enclose (Open 0 5) (Closed 3 9) = LeftOpen 0 9.
Proof. repeat split. Qed.

(** The same for Intervals.  Idempotence and absorption hold up to the points:
    a one-point interval can be stored in two ways (C22). *)
Theorem C65_interval_algebra {T} {O : Ord T} {F : Finite T} (i j k : Interval T) :
  reach true i -> reach true j -> reach true k ->
  interval_intersect i j = interval_intersect j i /\
  interval_intersect (interval_intersect i j) k = interval_intersect i (interval_intersect j k) /\
  interval_enclose i j = interval_enclose j i /\
  interval_enclose (interval_enclose i j) k = interval_enclose i (interval_enclose j k) /\
  (forall x, interval_contains (interval_intersect i i) x = interval_contains i x) /\
  (forall x, interval_contains (interval_enclose i i) x = interval_contains i x) /\
  (forall x, interval_contains (interval_intersect i (interval_enclose i j)) x = interval_contains i x) /\
  (forall x, interval_contains (interval_enclose i (interval_intersect i j)) x = interval_contains i x).
Proof.
  intros Ri Rj Rk.
  assert (Si := reach_solid i Ri). assert (Sj := reach_solid j Rj). assert (Sk := reach_solid k Rk).
  assert (Ei : forall a b : Interval T, solid (interval_raw a) -> solid (interval_raw b) ->
     interval_intersect a b = mkInterval (raw_intersect (interval_raw a) (interval_raw b))).
  { intros a b Sa Sb. unfold interval_intersect, interval_from_raw. rewrite normalized_idem, normalized_id; auto.
    apply raw_intersect_closed; now apply solid_shape. }
  assert (Ee : forall a b : Interval T, solid (interval_raw a) -> solid (interval_raw b) ->
     interval_enclose a b = mkInterval (raw_enclose (interval_raw a) (interval_raw b))).
  { intros a b Sa Sb. unfold interval_enclose, interval_from_raw. rewrite normalized_idem, normalized_id; auto.
    apply raw_enclose_closed; now apply solid_shape. }
  assert (SI : forall a b, reach true a -> reach true b -> solid (interval_raw (interval_intersect a b)))
    by (intros; apply reach_solid; now constructor).
  assert (SE : forall a b, reach true a -> reach true b -> solid (interval_raw (interval_enclose a b)))
    by (intros; apply reach_solid; now constructor).
  assert (Hull : forall a b x, solid (interval_raw a) -> solid (interval_raw b) ->
     (interval_contains (interval_enclose a b) x = true <->
      exists y z, (interval_contains a y = true \/ interval_contains b y = true) /\
                  (interval_contains a z = true \/ interval_contains b z = true) /\ le y x /\ le x z))
    by (intros; now apply interval_enclose_contains).
  assert (Cv : forall a y x z, interval_contains a y = true -> interval_contains a z = true -> le y x -> le x z -> interval_contains a x = true)
    by (intros a y x z; apply contains_convex).
  split; [|split; [|split; [|split; [|split; [|split; [|split]]]]]].
  - rewrite !Ei by auto. f_equal. apply raw_ext; auto using raw_intersect_wf.
    intros p. rewrite !raw_intersect_covers. apply andb_comm.
  - rewrite (Ei (interval_intersect i j) k), (Ei i (interval_intersect j k)) by auto.
    rewrite (Ei i j), (Ei j k) by auto. cbn [interval_raw]. f_equal.
    apply raw_ext; auto using raw_intersect_wf. intros p. rewrite !raw_intersect_covers. now rewrite andb_assoc.
  - rewrite !Ee by auto. f_equal. apply raw_enclose_comm.
  - rewrite (Ee (interval_enclose i j) k), (Ee i (interval_enclose j k)) by auto.
    rewrite (Ee i j), (Ee j k) by auto. cbn [interval_raw]. f_equal.
    assert (B : forall a b : RawInterval T, solid a -> solid b -> forall lx ux ly uy,
      raw_lower_bound a = Some (Include lx) -> raw_upper_bound a = Some (Include ux) -> le lx ux ->
      raw_lower_bound b = Some (Include ly) -> raw_upper_bound b = Some (Include uy) -> le ly uy ->
      raw_lower_bound (raw_enclose a b) = Some (least_union (Include lx) (Include ly)) /\
      raw_upper_bound (raw_enclose a b) = Some (greatest_union (Include ux) (Include uy))).
    { intros a b Sa Sb lx ux ly uy L1 U1 H1 L2 U2 H2. rewrite (raw_enclose_bounds _ _ _ _ _ _ L1 U1 L2 U2).
      apply raw_new_lower. apply enclose_pos_le; simpl; porder. }
    assert (El : forall a : RawInterval T, raw_enclose Empty a = raw_enclose a Empty) by (intros; apply raw_enclose_comm).
    assert (Ea : forall a b : RawInterval T, solid a -> solid b -> raw_enclose (raw_enclose a b) Empty = raw_enclose a b).
    { intros a b Sa Sb. apply raw_enclose_empty_r. apply raw_enclose_wf'. }
    assert (Eb : forall a b : RawInterval T, solid a -> solid b -> raw_enclose a (raw_enclose b Empty) = raw_enclose a b).
    { intros a b Sa Sb. destruct (solid_cases b Sb) as [->|(lb & ub & Lb & Ub & Hb)]; [reflexivity|].
      assert (Lb' : raw_lower_bound (raw_enclose b Empty) = Some (Include lb) /\ raw_upper_bound (raw_enclose b Empty) = Some (Include ub)).
      { unfold raw_enclose. rewrite Lb, Ub. cbn [raw_lower_bound raw_upper_bound]. apply raw_new_lower. simpl. porder. }
      destruct Lb' as [L' U']. unfold raw_enclose at 1 3. now rewrite Lb, Ub, L', U'. }
    revert Si Sj Sk. generalize (interval_raw i) (interval_raw j) (interval_raw k). clear - B El Ea Eb. intros a b c Sa Sb Sc.
    destruct (solid_cases a Sa) as [->|(la & ua & La & Ua & Ha)].
    { rewrite (El (raw_enclose b c)), (Ea b c), (El b), raw_enclose_comm, (Eb c b), raw_enclose_comm by auto. reflexivity. }
    destruct (solid_cases b Sb) as [->|(lb & ub & Lb & Ub & Hb)].
    { rewrite (El c), (Eb a c), (raw_enclose_comm _ c), (Eb c a), raw_enclose_comm by auto. reflexivity. }
    destruct (solid_cases c Sc) as [->|(lc & uc & Lc & Uc & Hc)].
    { rewrite (Ea a b), (Eb a b) by auto. reflexivity. }
    destruct (B a b Sa Sb _ _ _ _ La Ua Ha Lb Ub Hb) as [L1 U1]. destruct (B b c Sb Sc _ _ _ _ Lb Ub Hb Lc Uc Hc) as [L2 U2].
    rewrite (raw_enclose_bounds _ c _ _ _ _ L1 U1 Lc Uc), (raw_enclose_bounds a _ _ _ _ _ La Ua L2 U2).
    now rewrite least_union_assoc, greatest_union_assoc.
  - intros x. rewrite interval_intersect_contains. apply andb_diag.
  - intros x. apply eq_true_iff_eq. rewrite Hull by auto. split.
    + intros (y & z & [Hy|Hy] & [Hz|Hz] & L1 & L2); eauto.
    + intros H. exists x, x. repeat split; auto; order.
  - intros x. rewrite interval_intersect_contains. destruct (interval_contains i x) eqn:E; auto.
    apply Hull; auto. exists x, x. repeat split; auto; order.
  - intros x. apply eq_true_iff_eq. rewrite Hull by auto. split.
    + intros (y & z & Hy & Hz & L1 & L2). rewrite !interval_intersect_contains, !andb_true_iff in *.
      apply (Cv i y x z); tauto.
    + intros H. exists x, x. repeat split; auto; order.
Qed.
Print Assumptions C65_interval_algebra.
Example C65_ex2 : reach true (interval_open (v 3) (v 9)) /\
  interval_intersect (interval_open (v 3) (v 9)) (interval_enclose (interval_point (v 5)) (interval_unbounded_from (v 20))) =
  interval_closed (v 5) (v 8).
Proof. split; [constructor; discriminate|]. reflexivity. Qed.

(** ** C66: the Bound adapters *)

(** [unwrap] panics exactly on [Infinite]; the other accessors agree with it;
    [map] is a functor that keeps the kind of bound; [transfer] keeps the kind
    and replaces the value. *)
Theorem C66_bound_adapters {T U V} (b : Bound T) (d : T) (f : T -> U) (g : U -> V) (e : U) (w : U) :
  (bound_unwrap b = Panic <-> b = Infinite) /\
  (bound_as_ref b = None <-> b = Infinite) /\
  (forall x, bound_unwrap b = Ok x <-> bound_as_ref b = Some x) /\
  (forall x, bound_as_ref b = Some x <-> b = Include x \/ b = Exclude x) /\
  bound_unwrap_or b d = match bound_as_ref b with Some x => x | None => d end /\
  (forall h : unit -> T, bound_unwrap_or_else b h = bound_unwrap_or b (h tt)) /\
  bound_map b (fun x => x) = b /\
  bound_map (bound_map b f) g = bound_map b (fun x => g (f x)) /\
  bound_map_or b e f = bound_unwrap_or (bound_map b f) e /\
  (forall h : unit -> U, bound_map_or_else b h f = bound_map_or b (h tt) f) /\
  bound_transfer b w = bound_map b (fun _ => w) /\
  (forall x, bound_as_mut_set b x = bound_transfer b x) /\
  (is_finite (bound_map b f) = is_finite b /\ is_inclusive (bound_map b f) = is_inclusive b /\
   is_exclusive (bound_map b f) = is_exclusive b) /\
  is_finite b = is_inclusive b || is_exclusive b /\ is_inclusive b && is_exclusive b = false /\
  (is_inclusive b = true <-> exists x, b = bound_from x) /\
  bound_default d = bound_from d.
Proof.
  split; [destruct b; simpl; split; congruence|].
  split; [destruct b; simpl; split; congruence|].
  split; [intros y; destruct b; simpl; split; congruence|].
  split; [intros y; destruct b; simpl; (split; [intros H; first [discriminate H|injection H as ->; auto]|intros [H|H]; congruence])|].
  do 8 (split; [destruct b; reflexivity|]).
  split; [destruct b; repeat split|]. split; [destruct b; reflexivity|]. split; [destruct b; reflexivity|].
  split; [|reflexivity].
  destruct b as [y|y|]; simpl; (split; [intros H; first [discriminate H|now exists y]|intros (z & H); unfold bound_from in H; congruence]).
Qed.
Print Assumptions C66_bound_adapters.
Example C66_ex : bound_unwrap (Exclude 34) = Ok 34 /\ bound_map (Include 3) (fun x => x * 2) = Include 6 /\
  bound_transfer (Exclude 34) 18 = Exclude 18.
Proof. repeat split. Qed.
