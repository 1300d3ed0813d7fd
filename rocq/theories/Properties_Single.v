(** * C103: a Selection made from one interval answers like the interval *)
From Coq Require Import List Bool ZArith Lia Sorted Permutation.
From Verif Require Import Base OrdFacts Pos PFinite Ints MBound MRaw MNormalize MTine MBTree MTineTree MInterval MSelection
  Spec Spec_Tree Spec_Sel Spec_More Spec_Domain PRaw PRaw2 PNorm PIter PInterval PBTree PTree PTreeOps PTreeIsect PTree2 PTree3 PTree4 PTree5 PTree6 PTree7
  PSel PSel2 PSel3 PSel4 Instances Properties_Raw Properties_Parse Properties_Interval Properties_Tree Properties_Selection Properties_Tree2
  Properties_Selection2 Properties_Selection4 Properties_Both PDomain PDomain2 Properties_Domain Properties_Domain2.
Import ListNotations.
Local Open Scope Z_scope.
Local Arguments cmp : simpl never.

Section Single.
  Context {T : Type} {O : Ord T} {F : Finite T}.
  Implicit Types (i j : Interval T) (l u x : T).

  Let done : Iter T := {| tine_iter := []; saved_lower := None; saved_upper := None |}.

  Ltac split_fin :=
    repeat match goal with
    | |- context [match pred ?x with _ => _ end] => let E := fresh "E" in destruct (pred x) eqn:E
    | |- context [match succ ?x with _ => _ end] => let E := fresh "E" in destruct (succ x) eqn:E
    end.

  Lemma denormalized_closed l u : tight (Closed l u) -> normalized (denormalized (Closed l u)) = Closed l u.
  Proof.
    intros H. simpl. split_fin; simpl; split_fin; simpl in H; f_equal; destruct H; forder.
  Qed.

  (** The ends of an interval, for the induction below. *)
  Definition ends (r : RawInterval T) : option (T * T) :=
    match r with Point p => Some (p, p) | Closed l u => Some (l, u) | _ => None end.

  Lemma from_steps dbg i l u : tight (interval_raw i) -> ends (interval_raw i) = Some (l, u) ->
    exists d, normalized d = Closed l u /\
      iter_next dbg (tree_interval_iter (sel_from i)) = Ok (Some d, done) /\
      iter_next_back dbg (tree_interval_iter (sel_from i)) = Ok (Some d, done) /\
      tree_enclose dbg (sel_from i) = Ok d.
  Proof.
    intros Ti E. unfold sel_from, tree_interval_iter. set (d := denormalized (interval_raw i)).
    assert (Wd : raw_wf d) by now apply denormalized_tight_wf.
    assert (N : normalized d = Closed l u).
    { unfold d. destruct (interval_raw i); try discriminate E; injection E as -> ->.
      - apply (denormalized_closed u u). left. order.
      - now apply denormalized_closed. }
    exists d. split; [exact N|].
    destruct (from_raw_wf d Wd) as (_ & -> & _).
    destruct (raw_bounds_cases d) as [(K & _)|(lo & up & E1 & E2)]; [rewrite K in N; discriminate|].
    assert (R : raw_new lo up = d) by now apply raw_new_bounds.
    assert (P : forall p, d <> Point p) by (intros p K; rewrite K in N; discriminate).
    assert (Q : tree_enclose dbg (tine_from_raw_interval d) = Ok (raw_new lo up)).
    { destruct d as [|p| | | | | | | | |]; try discriminate E1; try (now destruct (P p)); injection E1 as <-; injection E2 as <-; reflexivity. }
    rewrite Q, R. clear Q. split; [|split; [|reflexivity]];
      (transitivity (@Ok (option (RawInterval T) * Iter T) (Some (raw_new lo up), done)); [|now rewrite R]);
      destruct d as [|p| | | | | | | | |]; try discriminate E1; try (now destruct (P p));
      injection E1 as <-; injection E2 as <-; destruct dbg; reflexivity.
  Qed.

  (** The states of an interval's iterator, with those of its Selection's. *)
  Definition alike (it : SelIter T) i : Prop :=
    (it = sel_iter (sel_from i) /\ tight (interval_raw i)) \/ it = {| si_intervals := done; si_current := i |}.

  Lemma next_point (p : T) : interval_next (mkInterval (Closed p p)) = interval_next (mkInterval (Point p)) /\
    interval_next_back (mkInterval (Closed p p)) = interval_next_back (mkInterval (Point p)).
  Proof.
    unfold interval_next, interval_next_back, interval_lower_bound, interval_upper_bound. cbn [interval_raw raw_lower_bound raw_upper_bound].
    assert (K : interval_minus (mkInterval (Closed p p)) (interval_from_point p) = interval_minus (mkInterval (Point p)) (interval_from_point p)).
    { unfold interval_minus, interval_from_point. cbn [interval_raw]. unfold raw_minus. simpl.
      unfold ltb, leb, gtb, geb, eqb. simpl. rewrite ?cmp_refl. simpl. unfold raw_right_open, raw_left_open. rewrite ?cmp_refl. reflexivity. }
    now rewrite K.
  Qed.

  Definition step_alike (o1 : res (option T * SelIter T)) (o2 : res (option T * Interval T)) : Prop :=
    match o1, o2 with
    | Ok (a, it), Ok (b, i) => a = b /\ alike it i
    | Panic, Panic => True
    | _, _ => False
    end.

  Lemma alike_next dbg it i : alike it i -> step_alike (sel_next dbg it) (interval_next i) /\ step_alike (sel_next_back dbg it) (interval_next_back i).
  Proof.
    intros [[-> Ti]| ->].
    - destruct (ends (interval_raw i)) as [[l u]|] eqn:E.
      + destruct (from_steps dbg i l u Ti E) as (d & Nd & E1 & E2 & E3).
        unfold sel_next, sel_next_back, sel_iter. cbn [si_current si_intervals].
        change (interval_next interval_empty) with (@Ok (option T * Interval T) (None, interval_empty)).
        change (interval_next_back interval_empty) with (@Ok (option T * Interval T) (None, interval_empty)). cbn [bind].
        rewrite E1, E2. cbn [bind]. rewrite Nd. unfold interval_from_raw. cbn [normalized].
        assert (N : interval_next (mkInterval (Closed l u)) = interval_next i /\ interval_next_back (mkInterval (Closed l u)) = interval_next_back i).
        { destruct i as [r]. cbn [interval_raw] in *. destruct r; try discriminate E; injection E as -> ->; [apply next_point|auto]. }
        destruct N as [-> ->]. split.
        * destruct (interval_next i) as [[o j]|]; simpl; [|exact I]. split; [reflexivity|now right].
        * destruct (interval_next_back i) as [[o j]|]; simpl; [|exact I]. split; [reflexivity|now right].
      + destruct i as [r]. cbn [interval_raw] in *. destruct r; try discriminate E; try contradiction Ti.
        split; (split; [reflexivity|]); right; reflexivity.
    - unfold sel_next, sel_next_back. cbn [si_current si_intervals].
      change (iter_next dbg done) with (@Ok (option (RawInterval T) * Iter T) (None, done)).
      change (iter_next_back dbg done) with (@Ok (option (RawInterval T) * Iter T) (None, done)).
      split.
      + destruct (interval_next i) as [[[o|] j]|]; simpl; [| |exact I]; (split; [reflexivity|now right]).
      + destruct (interval_next_back i) as [[[o|] j]|]; simpl; [| |exact I]; (split; [reflexivity|now right]).
  Qed.

  Lemma alike_runs dbg sched : forall it i out, alike it i ->
    (runs (sel_next dbg) (sel_next_back dbg) it sched out <-> runs interval_next interval_next_back i sched out).
  Proof.
    induction sched as [|[|] sched IH]; intros it i out A.
    - split; intros R; inversion R; constructor.
    - destruct (alike_next dbg it i A) as [N _]. unfold step_alike in N.
      split; intros R; inversion R as [|? it' o ? out' E K|]; subst; rewrite E in N.
      + destruct (interval_next i) as [[b j]|] eqn:Ej; [|contradiction]. destruct N as [-> N]. econstructor; [exact Ej|]. now apply (IH it').
      + destruct (sel_next dbg it) as [[b j]|] eqn:Ej; [|contradiction]. destruct N as [-> N]. econstructor; [exact Ej|]. now apply (IH j it').
    - destruct (alike_next dbg it i A) as [_ N]. unfold step_alike in N.
      split; intros R; inversion R as [| |? it' o ? out' E K]; subst; rewrite E in N.
      + destruct (interval_next_back i) as [[b j]|] eqn:Ej; [|contradiction]. destruct N as [-> N]. econstructor; [exact Ej|]. now apply (IH it').
      + destruct (sel_next_back dbg it) as [[b j]|] eqn:Ej; [|contradiction]. destruct N as [-> N]. econstructor; [exact Ej|]. now apply (IH j it').
  Qed.

  (** Every query of [Selection::from(i)] answers as the same query of [i]; this
      holds for the vacuous intervals too.  [is_bounded] is [false] on an empty
      Selection and [true] on an empty interval (C67). *)
  Theorem C103_queries dbg i : reach false i ->
    (forall x, sel_contains dbg (sel_from i) x = Ok (interval_contains i x)) /\
    sel_is_empty (sel_from i) = interval_is_empty i /\
    sel_lower_bound dbg (sel_from i) = Ok (interval_lower_bound i) /\
    sel_upper_bound dbg (sel_from i) = Ok (interval_upper_bound i) /\
    sel_is_left_bounded dbg (sel_from i) = Ok (interval_is_left_bounded i) /\
    sel_is_right_bounded dbg (sel_from i) = Ok (interval_is_right_bounded i) /\
    sel_is_half_bounded dbg (sel_from i) = Ok (interval_is_half_bounded i) /\
    (interval_is_empty i = false -> sel_is_bounded dbg (sel_from i) = Ok (interval_is_bounded i)) /\
    exists j, sel_enclose dbg (sel_from i) = Ok j /\
      interval_lower_bound j = interval_lower_bound i /\ interval_upper_bound j = interval_upper_bound i.
  Proof.
    intros R. pose proof (reach_tight _ _ R) as Ti. split.
    { intros x. destruct (run_ok dbg (P_from i) R) as (s & [= <-] & W & M & _).
      unfold sel_contains. rewrite tree_contains_den by auto. f_equal. apply eq_true_iff_eq. apply (M I). }
    destruct (ends (interval_raw i)) as [[l u]|] eqn:E.
    - destruct (from_steps dbg i l u Ti E) as (d & Nd & E1 & E2 & E3).
      assert (L : sel_lower_bound dbg (sel_from i) = Ok (Some (Include l))).
      { unfold sel_lower_bound, sel_interval_next, sel_interval_iter. rewrite E1. simpl. now rewrite Nd. }
      assert (U : sel_upper_bound dbg (sel_from i) = Ok (Some (Include u))).
      { unfold sel_upper_bound, sel_interval_next_back, sel_interval_iter. rewrite E2. simpl. now rewrite Nd. }
      unfold sel_is_half_bounded, sel_is_left_bounded, sel_is_right_bounded, sel_is_bounded. rewrite L, U. cbn [bind].
      destruct i as [r]. cbn [interval_raw] in *.
      split. { destruct (sel_from (mkInterval r)) eqn:K; [discriminate E1|]. simpl. destruct r; try discriminate E; reflexivity. }
      split; [destruct r; try discriminate E; injection E as <- <-; reflexivity|].
      split; [destruct r; try discriminate E; injection E as <- <-; reflexivity|].
      split; [destruct r; try discriminate E; reflexivity|].
      split; [destruct r; try discriminate E; reflexivity|].
      split; [destruct r; try discriminate E; reflexivity|].
      split; [destruct r; try discriminate E; reflexivity|].
      exists (mkInterval (Closed l u)). split.
      + unfold sel_enclose. rewrite E3. simpl. now rewrite Nd.
      + destruct r; try discriminate E; injection E as <- <-; split; reflexivity.
    - destruct i as [r]. cbn [interval_raw] in *. destruct r; try discriminate E; try contradiction Ti.
      repeat (split; [try reflexivity; discriminate|]). exists interval_empty. repeat split.
  Qed.

  (** Iterating [Selection::from(i)] and iterating [i] is the same, for every
      mixture of calls at the two ends. *)
  Theorem C103_iteration dbg i sched out : reach false i ->
    (runs (sel_next dbg) (sel_next_back dbg) (sel_iter (sel_from i)) sched out <->
     runs interval_next interval_next_back (interval_iter i) sched out).
  Proof. intros R. apply alike_runs. left. split; [reflexivity|]. now apply (reach_tight false). Qed.

  (** [interval_iter] yields nothing for an empty interval and one interval with
      the same ends otherwise, for every mixture of calls at the two ends. *)
  Theorem C103_interval_iter dbg i : reach false i ->
    exists js, match js with
              | [] => interval_is_empty i = true
              | [j] => interval_is_empty i = false /\
                  interval_lower_bound j = interval_lower_bound i /\ interval_upper_bound j = interval_upper_bound i /\
                  (forall x, interval_contains j x = interval_contains i x)
              | _ => False
              end /\
      forall sched, runs (sel_interval_next dbg) (sel_interval_next_back dbg) (sel_interval_iter (sel_from i)) sched (deque_run js sched).
  Proof.
    intros R. pose proof (reach_tight _ _ R) as Ti.
    assert (D : forall sched, runs (sel_interval_next dbg) (sel_interval_next_back dbg) done sched (deque_run [] sched)).
    { induction sched as [|[|] sched IH]; [constructor| |]; (econstructor; [reflexivity|exact IH]). }
    destruct (ends (interval_raw i)) as [[l u]|] eqn:E.
    - destruct (from_steps dbg i l u Ti E) as (d & Nd & E1 & E2 & _). exists [mkInterval (Closed l u)]. split.
      + destruct i as [r]. cbn [interval_raw] in *. destruct r; try discriminate E; injection E as <- <-; (split; [reflexivity|]);
          (split; [reflexivity|]); (split; [reflexivity|]); intros x; [|reflexivity].
        unfold interval_contains. cbn [interval_raw]. apply eq_true_iff_eq. rewrite !raw_contains_points. cbn [points].
        split; [intros; order|intros ->; split; order].
      + assert (S1 : sel_interval_next dbg (sel_interval_iter (sel_from i)) = Ok (Some (mkInterval (Closed l u)), done)).
        { unfold sel_interval_next, sel_interval_iter. rewrite E1. simpl. now rewrite Nd. }
        assert (S2 : sel_interval_next_back dbg (sel_interval_iter (sel_from i)) = Ok (Some (mkInterval (Closed l u)), done)).
        { unfold sel_interval_next_back, sel_interval_iter. rewrite E2. simpl. now rewrite Nd. }
        intros [|[|] sched]; [constructor| |]; (econstructor; [eassumption|apply D]).
    - destruct i as [r]. cbn [interval_raw] in *. destruct r; try discriminate E; try contradiction Ti.
      exists []. split; [reflexivity|]. exact D.
  Qed.

  Lemma from_member dbg i x : reach false i -> (member dbg (sel_from i) x <-> ipoints i x).
  Proof. intros R. unfold member, ipoints. rewrite (proj1 (C103_queries dbg i R) x). split; congruence. Qed.

  Lemma no_gap dbg i x : reach false i -> ~ lone_gap (member dbg (sel_from i)) x.
  Proof.
    intros R (N & (y & Ey & Hy) & (z & Ez & Hz)). apply N. rewrite !from_member in * by auto.
    unfold ipoints, interval_contains in *. rewrite <- covers_At in *.
    apply pred_some in Ey as [Ly _]. apply succ_some in Ez as [Lz _].
    apply (covers_convex _ (At y) (At x) (At z)); auto; porder.
  Qed.

  (** The set operations on Selections made from two intervals give the values
      the operations on the intervals give. *)
  Theorem C103_operations dbg i j : reach true i -> reach true j ->
    (exists s s', sel_union dbg (sel_from i) (sel_from j) = Ok s /\ sel_from_intervals dbg (interval_union i j) = Ok s' /\ s = s' /\
       sel_is dbg s (some_icontains (interval_union i j))) /\
    (exists s, sel_complement dbg (sel_from i) = Ok s /\ sel_is dbg s (some_icontains (interval_complement i))) /\
    (exists s, sel_intersect dbg (sel_from i) (sel_from j) = Ok s /\ sel_is dbg s (ipoints (interval_intersect i j))) /\
    (exists s, sel_minus dbg (sel_from i) (sel_from j) = Ok s /\ sel_is dbg s (some_icontains (interval_minus i j))) /\
    (exists s, sel_minus_in_place dbg (sel_from i) j = Ok s /\ sel_is dbg s (some_icontains (interval_minus i j))) /\
    (exists s, sel_union_in_place dbg (sel_from i) j = Ok s /\ sel_is dbg s (some_icontains (interval_union i j))).
  Proof.
    intros Ri Rj. pose proof (reach_weak i Ri) as Wi. pose proof (reach_weak j Rj) as Wj.
    pose proof (fun x => C20_operations_exact i j x Ri Rj) as K.
    assert (nb : forall b : bool, b = false <-> b <> true) by (intros []; intuition congruence).
    split; [|split; [|split; [|split; [|split]]]].
    - destruct (C43_set_semantics dbg (P_union (P_from i) (P_from j))) as (s & Es & Ms); [split; auto|split; exact I|].
      assert (FU : Forall (reach true) (interval_union i j)) by (apply Forall_forall; intros k Hk; exact (R_union true i j k Ri Rj Hk)).
      destruct (C43_set_semantics dbg (P_intervals (interval_union i j))) as (s' & Es' & Ms').
      { eapply Forall_impl; [|exact FU]. intros a Ha. now apply reach_weak. } { exact I. }
      exists s, s'. split; [exact Es|]. split; [exact Es'|]. split.
      + apply tree_eqb_eq.
        apply (proj2 (C48_canonical dbg (P_union (P_from i) (P_from j)) (P_intervals (interval_union i j)) s s'
          (conj Ri Rj) (conj I I) Es FU I Es')).
        intros x. simpl. destruct (K x) as (_ & U & _). rewrite U. reflexivity.
      + intros x. destruct (Ms x) as (b & Eb & Hb). exists b. split; auto. rewrite Hb. simpl. destruct (K x) as (_ & U & _). rewrite U. reflexivity.
    - destruct (C43_set_semantics dbg (P_complement (P_from i))) as (s & Es & Ms); [auto|exact I|].
      exists s. split; [exact Es|]. intros x. destruct (Ms x) as (b & Eb & Hb). exists b. split; auto. rewrite Hb. simpl.
      destruct (K x) as (_ & _ & _ & U & _). rewrite U. unfold ipoints. symmetry. apply nb.
    - destruct (C45_intersect_sound_partial dbg (P_from i) (P_from j) (sel_from i) (sel_from j) Wi eq_refl Wj eq_refl) as (s & Es & Ms & _).
      exists s. split; [exact Es|].
      destruct (run_ok dbg (P_intersect (P_from i) (P_from j)) (conj Wi Wj)) as (s' & Es' & W & _).
      simpl in Es'. rewrite Es in Es'. injection Es' as <-.
      intros x. exists (den false s (At x)). unfold sel_contains. rewrite tree_contains_den by auto. split; [reflexivity|].
      change (inS s x <-> ipoints (interval_intersect i j) x). rewrite <- (member_in dbg) by auto.
      destruct (K x) as (U & _). unfold ipoints. rewrite U, andb_true_iff. split.
      + intros M. destruct (Ms x M) as [M1 M2]. rewrite from_member in M1, M2 by auto. now split.
      + intros [X Y]. destruct (C50_single_partial dbg i Ri) as [[N _]|(i' & Ii & Pi)]; [congruence|].
        destruct (C50_single_partial dbg j Rj) as [[N _]|(j' & Ij & Pj)]; [congruence|].
        destruct (C45_intersect_single_partial dbg (P_from i) (P_from j) _ _ i' [j'] Wi eq_refl Wj eq_refl Ii Ij) as (s' & Es' & Ms' & _).
        { intros k [<-|[]]. exists x. unfold ipoints. rewrite Pi, Pj. now split. }
        rewrite Es in Es'. injection Es' as <-. destruct (Ms' x) as (b & Eb & Hb). unfold member at 1. rewrite Eb. f_equal. apply Hb.
        rewrite !from_member by auto. now split.
    - destruct (proj2 (C76_minus_domain dbg (P_from i) (P_from j) _ _ Ri I eq_refl Rj I eq_refl)) as (s & Es & Ms).
      { intros x y L. now destruct (no_gap dbg i x Wi). }
      exists s. split; [exact Es|]. intros x. destruct (Ms x) as (b & Eb & Hb). exists b. split; auto. rewrite Hb, !from_member by auto.
      destruct (K x) as (_ & _ & U & _). rewrite U. unfold ipoints. now rewrite nb.
    - destruct (proj2 (C76_minus_in_place_domain dbg (P_from i) _ j Ri I eq_refl Rj)) as (s & Es & Ms).
      { intros x _. now apply no_gap. }
      exists s. split; [exact Es|]. intros x. destruct (Ms x) as (b & Eb & Hb). exists b. split; auto. rewrite Hb, !from_member by auto.
      destruct (K x) as (_ & _ & U & _). rewrite U. unfold ipoints. now rewrite nb.
    - destruct (C43_set_semantics dbg (P_union_in_place (P_from i) j)) as (s & Es & Ms); [split; auto|exact I|].
      exists s. split; [exact Es|]. intros x. destruct (Ms x) as (b & Eb & Hb). exists b. split; auto. rewrite Hb. simpl.
      destruct (K x) as (_ & U & _). rewrite U. reflexivity.
  Qed.
End Single.
Print Assumptions C103_queries.
Print Assumptions C103_iteration.
Print Assumptions C103_interval_iter.
Print Assumptions C103_operations.

(** [5, 9], and the vacuous interval between 3 and 4, whose iteration is wrong
    (C23) in the same way at both layers. *)
Example C103_ex : reach true (cl 5 9) /\ reach true (cl 7 12) /\ reach false (interval_open (v 3) (v 4)) /\
  sel_lower_bound true (sel_from (cl 5 9)) = Ok (Some (Include (v 5))) /\
  runs (sel_next true) (sel_next_back true) (sel_iter (sel_from (cl 5 9))) [Back; Front; Back] [Some (v 9); Some (v 5); Some (v 8)] /\
  runs interval_next interval_next_back (interval_iter (cl 5 9)) [Back; Front; Back] [Some (v 9); Some (v 5); Some (v 8)] /\
  runs (sel_next true) (sel_next_back true) (sel_iter (sel_from (interval_open (v 3) (v 4)))) [Front; Front] [Some (v 4); None] /\
  runs interval_next interval_next_back (interval_iter (interval_open (v 3) (v 4))) [Front; Front] [Some (v 4); None] /\
  interval_minus (cl 5 9) (cl 7 12) = [cl 5 6].
Proof.
  split; [constructor|]. split; [constructor|]. split; [constructor; discriminate|]. split; [reflexivity|].
  repeat (split; [do 3 (try (econstructor; [reflexivity|])); constructor|]). reflexivity.
Qed.
