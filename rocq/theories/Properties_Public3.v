(** * Trees of raw intervals written with the public variants (C91) *)
From Coq Require Import List Bool ZArith Lia Sorted.
From Verif Require Import Base OrdFacts Pos PFinite MBound MRaw MNormalize MTine MBTree MTineTree Ints MInterval MSelection
  Spec Spec_Tree Instances PRaw PRaw2 PNorm PIter PInterval PBTree PTree PTreeOps PTreeIsect PTree2 PTree3
  Properties_Raw Properties_Interval Properties_Public Properties_Exact.
Import ListNotations.
Local Open Scope list_scope.
Local Arguments cmp : simpl never.

Section TreeOf.
  Context {T : Type} {O : Ord T}.
  Implicit Types r : RawInterval T.

  (** [r] is written with a lower end at [a] and an upper end at [b]. *)
  Definition written r (lb ub : Bound T) (a b : T) : Prop :=
    raw_lower_bound r = Some lb /\ raw_upper_bound r = Some ub /\
    (lb = Include a \/ lb = Exclude a) /\ (ub = Include b \/ ub = Exclude b).

  Lemma in_pair (lb ub : Bound T) dbg x :
    tree_contains dbg [TLower lb; TUpper ub] x = Ok (raw_contains (raw_new lb ub) x).
  Proof.
    unfold tree_contains. cbn. destruct dbg; cbn; destruct (raw_contains (raw_new lb ub) x); reflexivity.
  Qed.

  Lemma out_pair (lb ub : Bound T) x :
    tree_contains true [TUpper ub; TLower lb] x = Panic /\
    tree_contains false [TUpper ub; TLower lb] x = Ok (raw_contains (raw_new ub lb) x).
  Proof.
    unfold tree_contains. cbn. destruct (raw_contains (raw_new ub lb) x); split; reflexivity.
  Qed.

  (** Both ends in order: the tree holds the interval's values.  Both at one
      value: it holds that value if one of the ends includes it.  In the wrong
      order: every question panics with debug assertions; without them the tree
      holds what lies between the two ends, though the interval holds nothing. *)
  Theorem C91_tree_exact_partial r lb ub a b : written r lb ub a b ->
    (lt a b -> forall dbg x, tree_contains dbg (tree_from_raw_interval r) x = Ok (raw_contains r x)) /\
    (a = b -> forall dbg x, exists c, tree_contains dbg (tree_from_raw_interval r) x = Ok c /\
       (c = true <-> x = a /\ (lb = Include a \/ ub = Include b))) /\
    (lt b a -> forall x, tree_contains true (tree_from_raw_interval r) x = Panic /\ raw_contains r x = false /\
       exists c, tree_contains false (tree_from_raw_interval r) x = Ok c /\
         (c = true <-> (lt b x \/ x = b /\ ub = Include b) /\ (lt x a \/ x = a /\ lb = Include a))).
  Proof.
    intros (L & U & A & B). split; [|split].
    - intros H dbg x. assert (W : raw_wf r).
      { destruct r; simpl in *; auto; injection L as <-; injection U as <-; destruct A as [A|A], B as [B|B]; try discriminate;
        inversion A; inversion B; subst; exact H. }
      destruct (from_raw_wf r W) as (Wf & -> & D). rewrite tree_contains_den by auto. now rewrite D, covers_At.
    - intros <- dbg x.
      assert (R : cmp a a = Eq) by order.
      destruct r; simpl in L, U; try discriminate; injection L as <-; injection U as <-; destruct A as [A|A], B as [B|B]; try discriminate;
        inversion A; inversion B; subst;
        match goal with |- context [tree_from_raw_interval ?i] =>
          replace (tree_from_raw_interval i) with (tine_from_raw_interval i)
            by (unfold tree_from_raw_interval, btree_collect; cbn; rewrite ?R; reflexivity) end;
        cbn [tine_from_raw_interval]; rewrite ?in_pair; cbn [raw_new]; unfold raw_closed, raw_left_open, raw_right_open, raw_open; rewrite ?R;
        [exists (eqb x a)|exists false|exists (eqb x a)..]; (split; [try reflexivity|]); cbn; try (rewrite eqb_iff); try (intuition congruence; fail).
      unfold tree_contains; cbn. now destruct (eqb x a).
    - intros H x.
      assert (R : cmp a b = Gt) by order. assert (R2 : cmp b a = Lt) by order.
      destruct r; simpl in L, U; try discriminate; injection L as <-; injection U as <-; destruct A as [A|A], B as [B|B]; try discriminate;
        inversion A; inversion B; subst; try (exfalso; revert H; order; fail);
        match goal with |- context [tree_from_raw_interval ?i] =>
          replace (tree_from_raw_interval i) with (rev (tine_from_raw_interval i))
            by (unfold tree_from_raw_interval, btree_collect; cbn; rewrite ?R; reflexivity) end;
        cbn [tine_from_raw_interval rev app];
        match goal with |- context [[TUpper ?u; TLower ?l]] => destruct (out_pair l u x) as [P Q] end;
        (split; [exact P|]); rewrite Q; cbn [raw_new]; unfold raw_closed, raw_left_open, raw_right_open, raw_open; rewrite ?R2.
      all: (split; [apply not_true_iff_false; cbn; rewrite andb_true_iff, ?gtb_iff, ?geb_iff, ?ltb_iff, ?leb_iff; intros []; revert H; order|]).
      all: eexists; (split; [reflexivity|]); cbn; rewrite andb_true_iff, ?gtb_iff, ?geb_iff, ?ltb_iff, ?leb_iff.
      all: assert (N : forall y z : T, Exclude y = Include z <-> False) by (intros; split; [discriminate|tauto]).
      all: assert (S : forall y : T, Include y = Include y <-> True) by (intros; tauto).
      all: rewrite ?N, ?S; clear N S A B P Q; order.
  Qed.

  (** So the tree answers like the interval exactly when the ends are in order, or
      are at one value and of one kind. *)
  Theorem C91_tree_iff_partial r lb ub a b : written r lb ub a b ->
    (forall x, tree_contains true (tree_from_raw_interval r) x = Ok (raw_contains r x)) <->
    lt a b \/ a = b /\ (lb = Include a <-> ub = Include b).
  Proof.
    intros W. destruct (C91_tree_exact_partial r lb ub a b W) as (A & B & C).
    destruct W as (L & U & Ea & Eb). split.
    - intros H. destruct (cmp_spec a b) as [G|[G|G]].
      + left. exact G.
      + right. split; auto. subst b. destruct (B eq_refl true a) as (c & Hc & E). rewrite (H a) in Hc. injection Hc as <-.
        assert (R : cmp a a = Eq) by order.
        destruct r; simpl in L, U; try discriminate; injection L as <-; injection U as <-; destruct Ea as [Ea|Ea], Eb as [Eb|Eb]; try discriminate;
          inversion Ea; inversion Eb; subst; try (split; auto; fail); exfalso;
          cbn in E; unfold gtb, leb, geb, ltb in E; rewrite R in E; cbn in E; destruct E as [_ E];
          assert (false = true) by (apply E; auto); discriminate.
      + exfalso. destruct (C G a) as (P & _). rewrite H in P. discriminate.
    - intros [G|[G E]] x; [now apply A|]. subst b. destruct (B eq_refl true x) as (c & -> & F). f_equal.
      apply eq_true_iff_eq. rewrite F. clear F A B C.
      destruct r; simpl in L, U; try discriminate; injection L as <-; injection U as <-; destruct Ea as [Ea|Ea], Eb as [Eb|Eb]; try discriminate;
        inversion Ea; inversion Eb; subst; cbn; rewrite ?andb_true_iff, ?eqb_iff, ?gtb_iff, ?geb_iff, ?ltb_iff, ?leb_iff;
        assert (N : forall y z : T, Exclude y = Include z <-> False) by (intros; split; [discriminate|tauto]);
        assert (S : forall y : T, Include y = Include y <-> True) by (intros; tauto);
        rewrite ?N, ?S in *; clear N S Ea Eb; try (order); tauto.
  Qed.
End TreeOf.

(** A closed interval written backwards: 3 is not in it, its tree panics when
    asked, and without debug assertions answers that it holds 3.  A half-open one
    at a single value: its tree holds the value. *)
Local Open Scope Z_scope.
Example C91_tree_ex :
  written (Closed 5 2)%Z (Include 5) (Include 2) 5 2 /\
  tree_contains true (tree_from_raw_interval (Closed 5 2)) 3 = Panic /\
  tree_contains false (tree_from_raw_interval (Closed 5 2)) 3 = Ok true /\ raw_contains (Closed 5 2) 3 = false /\
  written (LeftOpen 4 4)%Z (Exclude 4) (Include 4) 4 4 /\
  tree_contains true (tree_from_raw_interval (LeftOpen 4 4)) 4 = Ok true /\ raw_contains (LeftOpen 4 4) 4 = false.
Proof. unfold written; cbn. intuition. Qed.

Print Assumptions C91_tree_exact_partial.
Print Assumptions C91_tree_iff_partial.
Section Intervals.
  Context {T : Type} {O : Ord T} {F : Finite T}.
  Implicit Types r : RawInterval T.

  (** The Interval made from any raw interval is [is_empty], or has two included
      bounds, in any order, and contains what lies between them. *)
  Theorem C91_interval_exact_partial r :
    let i := interval_from_raw r in
    (interval_is_empty i = true /\ interval_lower_bound i = None /\ interval_upper_bound i = None /\
     (forall x, raw_contains r x = false) /\ (forall dbg x, sel_contains dbg (sel_from i) x = Ok false)) \/
    (exists l u, interval_is_empty i = false /\ interval_lower_bound i = Some (Include l) /\
       interval_upper_bound i = Some (Include u) /\ forall x, raw_contains r x = true <-> le l x /\ le x u).
  Proof.
    cbv zeta.
    assert (C := fun x => C91_interval_contains_any r x). unfold interval_contains in C. 
    assert (S : closed_shape (normalized r)) by apply normalized_shape.
    unfold interval_is_empty, interval_lower_bound, interval_upper_bound, sel_from.
    unfold interval_from_raw in *. cbn [interval_raw] in *.
    destruct (normalized r) as [|p| | | |l u| | | | |]; simpl in S; try tauto.
    - left. repeat (split; [reflexivity|]). split; [intros x; now rewrite <- C|]. reflexivity.
    - right. exists p, p. repeat (split; [reflexivity|]). intros x. rewrite <- C. simpl. clear. order.
    - right. exists l, u. repeat (split; [reflexivity|]). intros x. rewrite <- C. simpl. clear. order.
  Qed.

  (** Bounds in order: any schedule of [next] and [next_back] takes the contained
      values from the two ends, and the Selection contains the same values.
      Bounds out of order: one of them comes out, then nothing; the Selection is
      right if fewer than two values lie strictly between the bounds, and otherwise panics with
      debug assertions and without them contains what lies between, save the
      two outermost. *)
  Theorem C91_interval_iter_partial r l u :
    let i := interval_from_raw r in
    interval_lower_bound i = Some (Include l) -> interval_upper_bound i = Some (Include u) ->
    (le l u ->
       (exists vs, lists vs (fun x => raw_contains r x = true) /\
          forall sched, runs interval_next interval_next_back (interval_iter i) sched (deque_run vs sched)) /\
       forall dbg x, sel_contains dbg (sel_from i) x = Ok (raw_contains r x)) /\
    (lt u l ->
       (forall sched, runs interval_next interval_next_back (interval_iter i) (Front :: sched) (Some l :: map (fun _ => None) sched)) /\
       (forall sched, runs interval_next interval_next_back (interval_iter i) (Back :: sched) (Some u :: map (fun _ => None) sched)) /\
       exists a b, succ u = Some a /\ pred l = Some b /\
         (le b a -> forall dbg x, sel_contains dbg (sel_from i) x = Ok false) /\
         (lt a b -> forall x, sel_contains true (sel_from i) x = Panic /\
            exists c, sel_contains false (sel_from i) x = Ok c /\ (c = true <-> lt a x /\ lt x b))).
  Proof.
    cbv zeta. intros L U.
    assert (C := fun x => C91_interval_contains_any r x).
    unfold interval_from_raw in *.
    assert (S : closed_shape (normalized r)) by apply normalized_shape.
    set (n := normalized r) in *. clearbody n. split.
    - intros H. assert (So : solid n).
      { unfold interval_lower_bound, interval_upper_bound in L, U. destruct n; simpl in *; try tauto. congruence. }
      split.
      + destruct (solid_lists (mkInterval n) So) as (vs & Lv). exists vs. split.
        * destruct Lv as [Lv Lw]. split; auto. intros x. rewrite Lw, <- C. reflexivity.
        * apply irep_runs. split; auto.
      + intros dbg x. unfold sel_contains, sel_from. cbn [interval_raw].
        pose proof (solid_tight n So) as Ti. destruct (from_raw_wf (denormalized n) (denormalized_tight_wf n Ti)) as (W & -> & Dn).
        rewrite tree_contains_den by auto. rewrite Dn, covers_At, denormalized_tight_contains by auto. now rewrite <- C.
    - intros H. assert (E : n = Closed l u).
      { unfold interval_lower_bound, interval_upper_bound in L, U. destruct n; simpl in *; try tauto; try congruence.
        exfalso. injection L as ->. injection U as ->. revert H. clear. order. }
      subst n.
      assert (D : forall sched, runs interval_next interval_next_back (interval_empty : Interval T) sched (map (fun _ => None) sched)).
      { induction sched as [|[] sched IH]; simpl; [constructor| |]; econstructor; eauto; reflexivity. }
      assert (M : forall j, interval_minus (mkInterval (Closed l u)) j = []).
      { intros j. unfold interval_minus. cbn [interval_raw]. unfold raw_minus.
        induction (raw_complement (interval_raw j)) as [|q c IH]; simpl; auto.
        destruct (raw_is_empty (raw_intersect (Closed l u) q)) eqn:E; simpl; auto. exfalso.
        apply raw_nonempty_covers in E as (y & Hq); [|apply raw_intersect_wf]. rewrite raw_intersect_covers in Hq.
        apply andb_prop in Hq as [Hq _]. rewrite (covers_bounds _ y (Include l) (Include u)) in Hq by reflexivity.
        simpl in Hq. revert Hq H. clear. porder. }
      split; [|split].
      + intros sched. apply runs_front with (it' := interval_empty); [|apply D]. unfold interval_next, interval_iter. cbn -[interval_minus]. now rewrite M.
      + intros sched. apply runs_back with (it' := interval_empty); [|apply D]. unfold interval_next_back, interval_iter. cbn -[interval_minus]. now rewrite M.
      + destruct (succ u) as [a|] eqn:Ea; [|exfalso; forder].
        destruct (pred l) as [b|] eqn:Eb; [|exfalso; forder].
        exists a, b. split; auto. split; auto. unfold sel_contains, sel_from. cbn [interval_raw denormalized]. rewrite Ea, Eb.
        destruct (C91_tree_exact_partial (Open b a) (Exclude b) (Exclude a) b a) as (P1 & P2 & P3); [unfold written; simpl; auto|].
        split.
        * intros K dbg x. destruct (cmp_spec b a) as [G|[G|G]].
          -- rewrite P1 by exact G. f_equal. apply not_true_iff_false. simpl. intros N. forder.
          -- destruct (P2 G dbg x) as (c & -> & Hc). f_equal. apply not_true_iff_false. rewrite Hc. intros [_ [?|?]]; discriminate.
          -- exfalso. revert K G. clear. order.
        * intros K x. destruct (P3 K x) as (P & _ & c & Q & Hc). split; auto. exists c. split; auto. rewrite Hc.
          split; [intros [[?|[_ ?]] [?|[_ ?]]]; auto; discriminate|tauto].
  Qed.
End Intervals.
Print Assumptions C91_interval_exact_partial.
Print Assumptions C91_interval_iter_partial.

(** Closed(9,2) over i8: it contains nothing, 9 comes out, and without debug
    assertions its Selection contains 4..7.  Closed(5,2): the Selection panics or
    contains nothing.  Closed(4,2): the Selection is right. *)
Example C91_interval_ex :
  drains interval_next (interval_iter (interval_from_raw (Closed (v 9) (v 2)))) [v 9] /\
  sel_contains true (sel_from (interval_from_raw (Closed (v 9) (v 2)))) (v 4) = Panic /\
  map (sel_contains false (sel_from (interval_from_raw (Closed (v 9) (v 2))))) [v 2; v 3; v 4; v 7; v 8; v 9] =
    map Ok [false; false; true; true; false; false] /\
  sel_contains true (sel_from (interval_from_raw (Closed (v 5) (v 2)))) (v 3) = Panic /\
  sel_contains false (sel_from (interval_from_raw (Closed (v 5) (v 2)))) (v 3) = Ok false /\
  sel_contains true (sel_from (interval_from_raw (Closed (v 4) (v 2)))) (v 3) = Ok false.
Proof.
  split; [eapply drains_cons; [vm_compute; reflexivity|]; eapply drains_nil; vm_compute; reflexivity|].
  repeat (split; [vm_compute; reflexivity|]). vm_compute. reflexivity.
Qed.

