(** * Properties of RawInterval and Bound: C01-C10, C14 *)
From Coq Require Import List Bool ZArith QArith Qcanon Lia.
From Verif Require Import Base OrdFacts Pos MBound MRaw Ints Spec Instances PRaw PRaw2.
Import ListNotations.
Local Open Scope Z_scope.

(** ** C01 *)

(** [contains] is membership in the set written in interval notation. *)
Theorem C01_contains_is_membership {T} {O : Ord T} (i : RawInterval T) (x : T) :
  raw_contains i x = true <-> points i x.
Proof. exact (raw_contains_points i x). Qed.
Print Assumptions C01_contains_is_membership.

Theorem C01_new_exact {T} {O : Ord T} (l u : Bound T) (x : T) :
  raw_wf (raw_new l u) /\
  (points (raw_new l u) x <-> (above l x /\ below u x) \/ mixed_at l u x).
Proof.
  split; [apply raw_new_wf|]. rewrite <- raw_contains_points. apply raw_new_contains.
Qed.
Print Assumptions C01_new_exact.

(** The named constructors are [new] with the corresponding bounds. *)
Theorem C01_named_constructors {T} {O : Ord T} (l r : T) :
  raw_open l r = raw_new (Exclude l) (Exclude r) /\
  raw_left_open l r = raw_new (Exclude l) (Include r) /\
  raw_right_open l r = raw_new (Include l) (Exclude r) /\
  raw_closed l r = raw_new (Include l) (Include r) /\
  (lt r l -> raw_open l r = Empty /\ raw_left_open l r = Empty /\
             raw_right_open l r = Empty /\ raw_closed l r = Empty) /\
  raw_open l l = Empty /\ raw_left_open l l = Point l /\ raw_right_open l l = Point l /\
  raw_closed l l = Point l.
Proof.
  repeat split; auto;
    unfold raw_open, raw_left_open, raw_right_open, raw_closed; rewrite ?cmp_refl; auto;
    destruct (cmp l r) eqn:E; auto; exfalso; order.
Qed.
Print Assumptions C01_named_constructors.

Example C01_ex : raw_new (Include 1) (Exclude 5) = RightOpen 1 5 /\
  raw_new (Include 3) (Exclude 3) = Point 3 /\ raw_new (Exclude 3) (Exclude 3) = Empty.
Proof. repeat split. Qed.

(** ** C02 *)
Theorem C02_intersect_exact {T} {O : Ord T} (a b : RawInterval T) :
  raw_wf (raw_intersect a b) /\
  forall x, raw_contains (raw_intersect a b) x = raw_contains a x && raw_contains b x.
Proof. split; [apply raw_intersect_wf|]. intros x. apply raw_intersect_contains. Qed.
Print Assumptions C02_intersect_exact.

Example C02_ex : raw_intersect (Closed 0 5) (LeftOpen 3 9) = LeftOpen 3 5.
Proof. reflexivity. Qed.

(** ** C03 *)

(** A common point is always reported. *)
Theorem C03_intersects_complete_partial {T} {O : Ord T} (a b : RawInterval T) (x : T) :
  raw_contains a x = true -> raw_contains b x = true -> raw_intersects a b = true.
Proof.
  intros Ha Hb. apply raw_intersects_covers. exists (At x). now rewrite !covers_At.
Qed.
Print Assumptions C03_intersects_complete_partial.

(** Over a dense order without end points the report is exact. *)
Theorem C03_intersects_exact_dense_partial {T} {O : Ord T} :
  dense T -> unbounded T -> inhabited T ->
  forall a b : RawInterval T,
  raw_intersects a b = true <-> exists x, raw_contains a x = true /\ raw_contains b x = true.
Proof.
  intros D U I a b. split.
  - intros H. unfold raw_intersects in H. apply negb_true_iff in H.
    destruct (dense_point _ D U I (raw_intersect_wf a b) H) as (x & Hx).
    exists x. now rewrite raw_intersect_contains, andb_true_iff in Hx.
  - intros (x & Ha & Hb). eapply C03_intersects_complete_partial; eauto.
Qed.
Print Assumptions C03_intersects_exact_dense_partial.

(** Over any order it is exact for intervals including their bounds, the shapes
    every [Interval] has. *)
Definition includes_bounds {T} (i : RawInterval T) : Prop :=
  match i with Empty | Point _ | Closed _ _ | To _ | From _ => True | _ => False end.
Theorem C03_intersects_exact_closed_partial {T} {O : Ord T} (a b : RawInterval T) :
  includes_bounds a -> includes_bounds b ->
  (raw_intersects a b = true <-> exists x, raw_contains a x = true /\ raw_contains b x = true).
Proof.
  intros Ha Hb. split.
  - intros H. unfold raw_intersects in H. apply negb_true_iff in H.
    assert (W := raw_intersect_wf a b).
    assert (K : exists x, raw_contains (raw_intersect a b) x = true).
    { assert (S : includes_bounds (raw_intersect a b)).
      { rewrite raw_intersect_eq. destruct a, b; simpl in *; try tauto;
          match goal with |- includes_bounds (if ?c then _ else _) => destruct c end; simpl; auto;
          split_cmp; simpl; unfold raw_closed; split_cmp; simpl; auto. }
      destruct (raw_intersect a b); simpl in *; try tauto; try discriminate;
        match goal with x : T |- _ => exists x; order end. }
    destruct K as (x & K). exists x. now rewrite raw_intersect_contains, andb_true_iff in K.
  - intros (x & Hx & Hy). eapply C03_intersects_complete_partial; eauto.
Qed.
Print Assumptions C03_intersects_exact_closed_partial.

Example C03_ex1 : raw_intersects (Closed 0 5) (Closed 5 9) = true. Proof. reflexivity. Qed.
Example C03_ex2 : dense Qc /\ unbounded Qc /\ inhabited Qc.
Proof. split; [exact Qc_dense|split; [exact Qc_unbounded|constructor; exact (Q2Qc 0)]]. Qed.

(** On a discrete order [intersects] may report an overlap without points. *)
Theorem C03_intersects_refuted :
  exists a b : RawInterval Z, raw_wf a /\ raw_wf b /\ raw_intersects a b = true /\
  (exists x, raw_contains a x = true) /\ (exists x, raw_contains b x = true) /\
  ~ exists x, raw_contains a x = true /\ raw_contains b x = true.
Proof.
  exists (Open 0 2), (Open 1 3). repeat split.
  - exists 1; reflexivity.
  - exists 2; reflexivity.
  - intros (x & H1 & H2). apply raw_contains_points in H1, H2. simpl in *.
    rewrite !Z_lt_iff in H1, H2. lia.
Qed.
Print Assumptions C03_intersects_refuted.

(** ** C04 *)
Theorem C04_complement_exact {T} {O : Ord T} (a : RawInterval T) :
  raw_wf a ->
  (forall x, some_contains (raw_complement a) x <-> raw_contains a x = false) /\
  pairwise_disjoint (raw_complement a) /\ Forall raw_wf (raw_complement a).
Proof.
  intros W. split; [intros x; apply raw_complement_contains|].
  split; [now apply raw_complement_disjoint|apply raw_complement_wf].
Qed.
Print Assumptions C04_complement_exact.

Example C04_ex : raw_wf (LeftOpen 1 4) /\ raw_complement (LeftOpen 1 4) = [To 1; UpFrom 4].
Proof. split; reflexivity. Qed.

(** ** C05 *)
Theorem C05_union_exact {T} {O : Ord T} (a b : RawInterval T) :
  raw_wf a -> raw_wf b ->
  (forall x, some_contains (raw_union a b) x <-> raw_contains a x = true \/ raw_contains b x = true) /\
  Forall (fun i => raw_wf i /\ i <> Empty) (raw_union a b) /\
  pairwise_disjoint (raw_union a b) /\
  match raw_union a b with
  | [] | [_] => True
  | [i; j] => separated i j \/ separated j i
  | _ => False
  end.
Proof.
  intros Wa Wb. split; [intros x; now apply raw_union_contains|].
  assert (F := raw_union_wf a b Wa Wb). assert (S := raw_union_shape a b Wa Wb).
  split; [|split; auto].
  - eapply Forall_impl; [|exact F]. intros i [W E]. split; auto. intros ->. discriminate.
  - destruct (raw_union a b) as [|i [|j [|]]]; try tauto; repeat constructor.
    inversion F as [|? ? [Wi _] F']; subst. inversion F' as [|? ? [Wj _] _]; subst.
    destruct S; [now apply separated_disjoint|].
    apply disjoint_sym. now apply separated_disjoint.
Qed.
Print Assumptions C05_union_exact.

Example C05_ex : raw_wf (Closed 0 2) /\ raw_wf (LeftOpen 2 4) /\ raw_wf (Open 5 7) /\
  raw_union (Closed 0 2) (LeftOpen 2 4) = [Closed 0 4] /\
  raw_union (Closed 0 2) (Open 5 7) = [Closed 0 2; Open 5 7].
Proof. repeat split. Qed.

(** ** C06 *)
Theorem C06_minus_exact {T} {O : Ord T} (a b : RawInterval T) :
  (forall x, some_contains (raw_minus a b) x <-> raw_contains a x = true /\ raw_contains b x = false) /\
  Forall (fun i => raw_wf i /\ i <> Empty) (raw_minus a b) /\
  (raw_wf b -> pairwise_disjoint (raw_minus a b)) /\
  (length (raw_minus a b) <= 2)%nat.
Proof.
  split; [intros x; apply raw_minus_contains|]. split; [|split].
  - assert (F := raw_minus_nonempty a b). assert (W := raw_minus_wf a b).
    rewrite Forall_forall in *. intros i Hi. split; auto. intros ->. now specialize (F _ Hi).
  - apply raw_minus_disjoint.
  - apply raw_minus_length.
Qed.
Print Assumptions C06_minus_exact.

Example C06_ex : raw_minus (Closed 0 9) (Open 3 5) = [Closed 0 3; Closed 5 9].
Proof. reflexivity. Qed.

(** ** C07 *)
Theorem C07_enclose_smallest {T} {O : Ord T} (a b : RawInterval T) :
  raw_wf a -> raw_wf b ->
  raw_wf (raw_enclose a b) /\
  (forall x, raw_contains a x = true \/ raw_contains b x = true -> raw_contains (raw_enclose a b) x = true) /\
  (forall c, (a = Empty \/ exists y, raw_contains a y = true) ->
             (b = Empty \/ exists y, raw_contains b y = true) ->
     (forall y, raw_contains a y = true \/ raw_contains b y = true -> raw_contains c y = true) ->
     forall x, raw_contains (raw_enclose a b) x = true -> raw_contains c x = true).
Proof.
  intros Wa Wb. split; [now apply raw_enclose_wf|]. split.
  - intros x. rewrite <- !covers_At.
    intros [H|H]; [now apply raw_enclose_covers_l|now apply raw_enclose_covers_r].
  - intros c Ha Hb Hc x. now apply raw_enclose_least.
Qed.
Print Assumptions C07_enclose_smallest.

Example C07_ex : raw_wf (Closed 0 2) /\ raw_wf (Open 5 7) /\ raw_enclose (Closed 0 2) (Open 5 7) = RightOpen 0 7 /\
  raw_contains (Closed 0 2) 1 = true /\ raw_contains (Open 5 7) 6 = true.
Proof. repeat split. Qed.

(** ** C08 *)
Theorem C08_union_all_points_partial {T} {O : Ord T} (l : list (RawInterval T)) :
  Forall raw_wf l ->
  (forall x, some_contains (raw_union_all l) x <-> some_contains l x) /\
  Forall (fun i => raw_wf i /\ i <> Empty) (raw_union_all l).
Proof.
  intros W. split.
  - intros x. now rewrite !some_contains_lcovers, raw_union_all_covers.
  - eapply Forall_impl; [|apply raw_union_all_wf, W]. intros i [Wi E]. split; auto. intros ->. discriminate.
Qed.
Print Assumptions C08_union_all_points_partial.

(** Inputs given in order of their lower bounds: the pieces are in order and
    none touches the next. *)
Theorem C08_union_all_sorted_partial {T} {O : Ord T} (l : list (RawInterval T)) :
  Forall raw_wf l -> ForallOrdPairs starts_no_later l ->
  ForallOrdPairs separated (raw_union_all l) /\ pairwise_disjoint (raw_union_all l).
Proof.
  intros W S.
  assert (S' : ForallOrdPairs starts_le l).
  { clear W.
    induction S as [|i l H S IH]; constructor; auto.
    eapply Forall_impl; [|exact H]. intros j. unfold starts_no_later, starts_le.
    destruct (raw_lower_bound i) as [p|], (raw_lower_bound j) as [q|]; auto.
    destruct p, q; simpl; try tauto; porder. }
  assert (K := raw_union_all_sorted_sep l W S'). split; auto.
  apply sep_list_disjoint; auto.
  eapply Forall_impl; [|apply raw_union_all_wf, W]. now intros i [].
Qed.
Print Assumptions C08_union_all_sorted_partial.

Example C08_ex : Forall raw_wf [Closed 0 2; Point 3; Closed 2 4; Open 6 8] /\
  ForallOrdPairs starts_no_later [Closed 0 2; Closed 2 4; Open 6 8] /\
  raw_union_all [Closed 0 2; Closed 2 4; Open 6 8] = [Closed 0 4; Open 6 8].
Proof. repeat split; repeat constructor; discriminate. Qed.

(** In another order, pieces can overlap. *)
Theorem C08_union_all_refuted :
  exists (l : list (RawInterval Z)) i j, Forall raw_wf l /\ raw_union_all l = [i; j] /\
  raw_contains i 4 = true /\ raw_contains j 4 = true.
Proof.
  exists [Closed 0 1; Closed 4 5; Closed 1 4], (Closed 0 4), (Closed 4 5).
  repeat split; repeat constructor.
Qed.
Print Assumptions C08_union_all_refuted.

(** ** C09 *)
Theorem C09_enclose_all_contains_partial {T} {O : Ord T} (l : list (RawInterval T)) (x : T) :
  some_contains l x -> raw_contains (raw_enclose_all l) x = true.
Proof. intros _. now rewrite raw_enclose_all_full. Qed.
Print Assumptions C09_enclose_all_contains_partial.
Example C09_ex : some_contains [Closed 0 2; Open 5 9] 6 /\ raw_contains (raw_enclose_all [Closed 0 2; Open 5 9]) 6 = true.
Proof. split; [exists (Open 5 9); simpl; auto|reflexivity]. Qed.

(** It is in fact [Full] for every list. *)
Theorem C09_enclose_all_refuted :
  (forall {T} {O : Ord T} (l : list (RawInterval T)), raw_enclose_all l = Full) /\
  exists (l : list (RawInterval Z)), Forall raw_wf l /\
    (forall x, some_contains l x -> raw_contains (Closed 0 2) x = true) /\
    raw_contains (raw_enclose_all l) 100 = true.
Proof.
  split; [intros; apply raw_enclose_all_full|].
  exists [Point 0; Closed 1 2]. repeat split; [repeat constructor|].
  intros x (i & Hi & Hx). apply raw_contains_points in Hx. apply raw_contains_points.
  destruct Hi as [<-|[<-|[]]]; simpl in *; rewrite ?Z_le_iff in *; lia.
Qed.
Print Assumptions C09_enclose_all_refuted.

(** ** C10 *)
Theorem C10_intersect_all_exact {T} {O : Ord T} (l : list (RawInterval T)) :
  raw_wf (raw_intersect_all l) /\
  forall x, raw_contains (raw_intersect_all l) x = true <-> forall i, In i l -> raw_contains i x = true.
Proof.
  split; [apply raw_intersect_all_wf|]. intros x.
  rewrite raw_intersect_all_contains, forallb_forall. tauto.
Qed.
Print Assumptions C10_intersect_all_exact.

Example C10_ex : raw_intersect_all [Closed 0 5; Open 2 9; From 4] = Closed 4 5.
Proof. reflexivity. Qed.

(** ** C14 *)
Theorem C14_bound_combinators {T} {O : Ord T} (p q : Bound T) (x : T) :
  (above (least_union p q) x <-> above p x \/ above q x) /\
  (above (greatest_intersect p q) x <-> above p x /\ above q x) /\
  (below (greatest_union p q) x <-> below p x \/ below q x) /\
  (below (least_intersect p q) x <-> below p x /\ below q x).
Proof.
  split; [apply least_union_above|split; [apply greatest_intersect_above|
    split; [apply greatest_union_below|apply least_intersect_below]]].
Qed.
Print Assumptions C14_bound_combinators.

Theorem C14_bound_algebra {T} {O : Ord T} :
  let semilattice (f : Bound T -> Bound T -> Bound T) :=
    (forall p q, f p q = f q p) /\ (forall p q r, f p (f q r) = f (f p q) r) /\ (forall p, f p p = p) in
  semilattice least_union /\ semilattice greatest_union /\
  semilattice least_intersect /\ semilattice greatest_intersect.
Proof.
  repeat split; auto using least_union_comm, least_union_assoc, least_union_idem,
    greatest_union_comm, greatest_union_assoc, greatest_union_idem,
    least_intersect_comm, least_intersect_assoc, least_intersect_idem,
    greatest_intersect_comm, greatest_intersect_assoc, greatest_intersect_idem.
Qed.
Print Assumptions C14_bound_algebra.

Example C14_ex : least_union (Include 3) (Exclude 3) = Include 3 /\
  greatest_intersect (Include 3) (Exclude 3) = Exclude 3.
Proof. split; reflexivity. Qed.
