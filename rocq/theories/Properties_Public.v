(** * Raw intervals written with the public variants (C91)

    [RawInterval]'s variants are public: [Closed(5, 2)] and [Open(3, 3)] can be
    written although no function of the crate returns them.  Nothing here
    assumes that the bounds are in order. *)
From Coq Require Import List Bool ZArith Lia.
From Verif Require Import Base OrdFacts Pos PFinite Ints MBound MRaw MNormalize MTine MBTree MTineTree MInterval MSelection
  Spec Spec_Tree Spec_Sel PRaw PRaw2 PNorm Instances Properties_Raw Properties_Interval Properties_Tree Properties_Selection.
Import ListNotations.
Local Open Scope list_scope.
Local Arguments cmp : simpl never.

Section Public.
  Context {T : Type} {O : Ord T}.
  Implicit Types (a b : RawInterval T).

  Lemma enclose_any_l a b x : raw_contains a x = true -> raw_contains (raw_enclose a b) x = true.
  Proof.
    destruct (raw_bounds_cases a) as [(-> & _)|(la & ua & La & Ua)]; [easy|]. intros H.
    assert (Ha : le (lpos la) (upos ua)).
    { rewrite <- covers_At, (covers_bounds a _ la ua) in H by auto. revert H. generalize (lpos la) (upos ua). porder. }
    destruct (raw_bounds_cases b) as [(-> & L0 & U0)|(lb & ub & Lb & Ub)].
    - unfold raw_enclose. rewrite La, Ua. simpl. rewrite <- covers_At, raw_new_covers by auto.
      rewrite <- covers_At in H. unfold covers in H. now rewrite La, Ua in H.
    - rewrite (raw_enclose_bounds a b la ua lb ub) by auto. rewrite <- covers_At, raw_new_covers by now apply enclose_pos_le.
      rewrite <- covers_At, (covers_bounds a _ la ua) in H by auto. rewrite andb_true_iff, !leb_iff, lpos_lu, upos_gu. tauto.
  Qed.

  (** [contains] asks both bounds. *)
  Theorem C91_contains_any a x :
    raw_contains a x = true <->
    exists l u, raw_lower_bound a = Some l /\ raw_upper_bound a = Some u /\ above l x /\ below u x.
  Proof.
    rewrite raw_bounds_contains. destruct (raw_bounds_cases a) as [(-> & _)|(l & u & -> & ->)].
    - simpl. split; [tauto|]. now intros (l & u & ? & _).
    - split; [intros []; eauto 6|]. intros (l' & u' & [= ->] & [= ->] & ?). auto.
  Qed.

  (** The operations whose result contains the right points for all values. *)
  Theorem C91_operations_any a b x :
    (some_contains (raw_complement a) x <-> raw_contains a x = false) /\
    (raw_contains (raw_intersect a b) x = true <-> raw_contains a x = true /\ raw_contains b x = true) /\
    (some_contains (raw_minus a b) x <-> raw_contains a x = true /\ raw_contains b x = false) /\
    (raw_contains a x = true \/ raw_contains b x = true -> raw_contains (raw_enclose a b) x = true) /\
    (raw_contains a x = true -> raw_contains (raw_closure a) x = true) /\
    (raw_contains a x = true \/ raw_contains b x = true -> some_contains (raw_union a b) x) /\
    (raw_contains a x = true -> raw_contains b x = true -> raw_intersects a b = true).
  Proof.
    split; [apply raw_complement_contains|]. split; [rewrite <- !covers_At, raw_intersect_covers; apply andb_true_iff|].
    split; [apply raw_minus_contains|].
    assert (En : raw_contains a x = true \/ raw_contains b x = true -> raw_contains (raw_enclose a b) x = true).
    { intros [H|H]; [now apply enclose_any_l|]. rewrite raw_enclose_comm. now apply enclose_any_l. }
    split; [exact En|]. split; [destruct a; simpl; order|]. split.
    - intros H. unfold raw_union, some_contains.
      destruct (raw_is_empty a) eqn:Ea, (raw_is_empty b) eqn:Eb.
      + destruct a, b; try discriminate. destruct H; discriminate.
      + destruct a; try discriminate. destruct H; [discriminate|]. exists b. simpl; auto.
      + destruct b; try discriminate. destruct H; [|discriminate]. exists a. simpl; auto.
      + destruct (raw_intersects a b || raw_is_adjacent_to a b); [exists (raw_enclose a b); simpl; auto|].
        destruct H; [exists a|exists b]; simpl; auto.
    - intros Ha Hb. apply raw_intersects_covers. exists (At x). now rewrite !covers_At.
  Qed.

  (** [intersects] is right for all values on dense types without end points, and
      true only if [intersect] returns something else than [Empty] on all types. *)
  Theorem C91_intersects_any a b :
    (raw_intersects a b = true <-> raw_intersect a b <> Empty).
  Proof. unfold raw_intersects. destruct (raw_intersect a b); simpl; split; intros; try discriminate; congruence. Qed.

  (** [union] adds no point as long as one operand has its bounds in order or
      contains a point. *)
  Definition sound a : Prop := match raw_lower_bound a, raw_upper_bound a with Some l, Some u => le (lpos l) (upos u) | _, _ => True end.
  Lemma meets_any a b x : sound a -> raw_is_empty a = false -> raw_is_empty b = false -> meets a b = true -> raw_contains (raw_enclose a b) x = true ->
    raw_contains a x = true \/ raw_contains b x = true.
  Proof.
    intros Sa Ea Eb H. destruct (raw_bounds_cases a) as [(-> & _)|(la & ua & La & Ua)]; [discriminate|].
    destruct (raw_bounds_cases b) as [(-> & _)|(lb & ub & Lb & Ub)]; [discriminate|].
    unfold sound in Sa. rewrite La, Ua in Sa. rewrite <- !covers_At. generalize (At x) as p. intros p.
    rewrite (raw_enclose_bounds a b la ua lb ub) by auto. rewrite raw_new_covers by now apply enclose_pos_le.
    rewrite andb_true_iff, !leb_iff, lpos_lu, upos_gu, (covers_bounds a p la ua), (covers_bounds b p lb ub) by auto.
    unfold meets in H. apply orb_true_iff in H. rewrite raw_intersects_covers in H. unfold raw_is_adjacent_to in H.
    rewrite La, Lb, Ua, Ub, orb_true_iff in H. destruct H as [(q & Hq & Hq')|[H|H]].
    - rewrite (covers_bounds a q la ua) in Hq by auto. rewrite (covers_bounds b q lb ub) in Hq' by auto.
      revert Hq Hq'. generalize (lpos la) (lpos lb) (upos ua) (upos ub). clear. porder.
    - apply adjacent_pos in H. revert H Sa. unfold next_to.
      generalize (lpos la) (lpos lb) (upos ua) (upos ub). clear. intros a b c d H Ha.
      destruct H as [->|[H H']]; [porder|]. specialize (H' p). porder.
    - apply adjacent_pos in H. revert H Sa. unfold next_to.
      generalize (lpos la) (lpos lb) (upos ua) (upos ub). clear. intros a b c d H Ha.
      destruct H as [->|[H H']]; [porder|]. specialize (H' p). porder.
  Qed.
  Lemma meets_comm a b : meets a b = meets b a.
  Proof.
    unfold meets. apply eq_true_iff_eq. rewrite !orb_true_iff, !raw_intersects_covers.
    assert (E : raw_is_adjacent_to a b = raw_is_adjacent_to b a).
    { unfold raw_is_adjacent_to. destruct (raw_lower_bound a), (raw_lower_bound b), (raw_upper_bound a), (raw_upper_bound b); auto; apply orb_comm. }
    rewrite E. firstorder.
  Qed.
  Lemma contains_sound a x : raw_contains a x = true -> sound a.
  Proof.
    unfold sound. destruct (raw_bounds_cases a) as [(-> & _)|(l & u & L & U)]; [discriminate|]. rewrite <- covers_At, (covers_bounds a _ l u), L, U by auto.
    generalize (lpos l) (upos u). porder.
  Qed.
  Lemma wf_sound a : raw_wf a -> sound a.
  Proof.
    unfold sound. intros W. destruct (raw_bounds_cases a) as [(-> & _)|(l & u & L & U)]; [exact I|]. rewrite L, U. now apply (raw_wf_pos a).
  Qed.
  Theorem C91_union_partial a b :
    raw_wf a \/ raw_wf b \/ (exists y, raw_contains a y = true \/ raw_contains b y = true) ->
    forall x, some_contains (raw_union a b) x <-> raw_contains a x = true \/ raw_contains b x = true.
  Proof.
    intros H x. split; [|apply C91_operations_any].
    assert (S : sound a \/ sound b).
    { destruct H as [H|[H|(y & [H|H])]]; [left; now apply wf_sound|right; now apply wf_sound|left; now apply (contains_sound a y)|right; now apply (contains_sound b y)]. }
    unfold raw_union, some_contains. destruct (raw_is_empty a) eqn:Ea, (raw_is_empty b) eqn:Eb.
    - now intros (i & [] & _).
    - intros (i & [<-|[]] & K); auto.
    - intros (i & [<-|[]] & K); auto.
    - fold (meets a b). destruct (meets a b) eqn:M.
      + intros (i & [<-|[]] & K). destruct S as [S|S]; [now apply meets_any|]. rewrite raw_enclose_comm in K. rewrite meets_comm in M.
        destruct (meets_any b a x S Eb Ea M K); auto.
      + intros (i & [<-|[<-|[]]] & K); auto.
  Qed.
End Public.
Print Assumptions C91_contains_any.
Print Assumptions C91_operations_any.
Print Assumptions C91_intersects_any.
Print Assumptions C91_union_partial.
Example C91_ex : raw_wf (Open 2%Z 9%Z) /\ ~ raw_wf (Closed 5 2)%Z /\ raw_union (Open 2 9)%Z (Closed 5 2)%Z = [Open 2 9]%Z.
Proof. split; [reflexivity|]. split; [discriminate|reflexivity]. Qed.

(** Neither [5, 2] nor (2, 0) contains anything; their union contains 2. *)
Theorem C91_union_refuted :
  exists a b : RawInterval Z, (forall x, raw_contains a x = false) /\ (forall x, raw_contains b x = false) /\
    exists x, some_contains (raw_union a b) x.
Proof.
  exists (Closed 5 2)%Z, (Open 2 0)%Z.
  assert (K : forall i : RawInterval Z, (forall x, ~ points i x) -> forall x, raw_contains i x = false).
  { intros i H x. destruct (raw_contains i x) eqn:E; auto. apply raw_contains_points in E. now destruct (H x). }
  split; [apply K; intros x; simpl; rewrite ?Z_lt_iff, ?Z_le_iff; lia|].
  split; [apply K; intros x; simpl; rewrite ?Z_lt_iff, ?Z_le_iff; lia|].
  exists 2%Z. eexists. split; [left; reflexivity|reflexivity].
Qed.
Print Assumptions C91_union_refuted.

Section Interval.
  Context {T : Type} {O : Ord T} {F : Finite T}.
  (** The Interval made from any raw interval contains the same values. *)
  Theorem C91_interval_contains_any (r : RawInterval T) x : interval_contains (interval_from_raw r) x = raw_contains r x.
  Proof. apply normalized_contains. Qed.
End Interval.
Print Assumptions C91_interval_contains_any.
(** But it may yield a value it does not contain, is not empty, and the
    Selection made from it panics in builds with debug assertions. *)
Theorem C91_interval_refuted :
  exists r : RawInterval i8, let i := interval_from_raw r in
    (forall x, interval_contains i x = false) /\ interval_is_empty i = false /\ drains interval_next i [v 5] /\
    sel_contains true (sel_from i) (v 3) = Panic /\ sel_contains true (sel_from i) (v 5) = Panic.
Proof.
  exists (Closed (v 5) (v 2)). cbv zeta. split; [|split; [reflexivity|split; [|split; reflexivity]]].
  - intros [x r]. unfold interval_contains. simpl. unfold geb, leb, cmp. simpl.
    change (ival (v 5)) with 5%Z. change (ival (v 2)) with 2%Z.
    destruct (Z.compare_spec x 5), (Z.compare_spec x 2); try reflexivity; lia.
  - eapply drains_cons; [vm_compute; reflexivity|]. eapply drains_nil. vm_compute. reflexivity.
Qed.
Print Assumptions C91_interval_refuted.
(** The tree made from it as well; without debug assertions it claims values. *)
Theorem C91_tree_refuted : exists r : RawInterval Z, (forall x, raw_contains r x = false) /\
  tree_contains true (tree_from_raw_interval r) 3%Z = Panic /\ tree_contains false (tree_from_raw_interval r) 3%Z = Ok true.
Proof.
  exists (Closed 5 2)%Z. split; [|repeat split].
  intros x. destruct (raw_contains _ x) eqn:E; auto. apply raw_contains_points in E. simpl in E. rewrite ?Z_lt_iff, ?Z_le_iff in E. lia.
Qed.
Print Assumptions C91_tree_refuted.
