(** * More properties of Selections: C67-C71 *)
From Coq Require Import List Bool ZArith Lia Sorted.
From Verif Require Import Base OrdFacts Pos PFinite MBound MRaw MNormalize MTine MBTree MTineTree Ints MInterval MSelection
  Spec Spec_Tree Spec_Sel Instances PRaw PRaw2 PNorm PIter PInterval PBTree PTree PTreeOps PTreeIsect PTree2 PTree3 PTree4 PTree5 PTree6 PTree7
  PSel PSel2 PSel3 PSel4 PDebug Properties_Interval Properties_Selection.
Import ListNotations.
Local Open Scope Z_scope.
#[local] Arguments cmp : simpl never.

(** ** C67: boundedness *)

(** Values of a [Finite] type are bounded on both sides: every Selection is
    left- and right-bounded and none is half-bounded. *)
Lemma lower_closed {T} {O : Ord T} {F : Finite T} dbg (s : Selection T) : wf s ->
  exists o, sel_lower_bound dbg s = Ok o /\ (o = None \/ exists m, o = Some (Include m)).
Proof.
  intros W. unfold sel_lower_bound, sel_interval_next, sel_interval_iter. destruct (next_head dbg s W) as (it & ->). simpl.
  eexists. split; [reflexivity|]. destruct (hd_error (pieces None s)) as [r|]; simpl; auto.
  unfold interval_lower_bound. change (interval_from_raw (normalized r)) with (nrm r). rewrite nrm_raw.
  pose proof (normalized_shape r). destruct (normalized r); simpl in *; try tauto; eauto.
Qed.
Lemma upper_closed {T} {O : Ord T} {F : Finite T} dbg (s : Selection T) : wf s ->
  exists o, sel_upper_bound dbg s = Ok o /\ (o = None \/ exists m, o = Some (Include m)).
Proof.
  intros W. unfold sel_upper_bound, sel_interval_next_back, sel_interval_iter. destruct (next_back_last dbg s W) as (it & ->). simpl.
  eexists. split; [reflexivity|]. destruct (hd_error (rev (pieces None s))) as [r|]; simpl; auto.
  unfold interval_upper_bound. change (interval_from_raw (normalized r)) with (nrm r). rewrite nrm_raw.
  pose proof (normalized_shape r). destruct (normalized r); simpl in *; try tauto; eauto.
Qed.
Theorem C67_sides_bounded {T} {O : Ord T} {F : Finite T} dbg (p : prog T) s :
  inputs false p -> run dbg p = Ok s ->
  sel_is_left_bounded dbg s = Ok true /\ sel_is_right_bounded dbg s = Ok true /\ sel_is_half_bounded dbg s = Ok false /\
  exists b, sel_is_bounded dbg s = Ok b.
Proof.
  intros H E. pose proof (run_wf dbg p s H E) as W.
  destruct (lower_closed dbg s W) as (l & El & Hl), (upper_closed dbg s W) as (u & Eu & Hu).
  assert (A : sel_is_left_bounded dbg s = Ok true).
  { unfold sel_is_left_bounded. rewrite El. simpl. destruct Hl as [->|(m & ->)]; reflexivity. }
  assert (B : sel_is_right_bounded dbg s = Ok true).
  { unfold sel_is_right_bounded. rewrite Eu. simpl. destruct Hu as [->|(m & ->)]; reflexivity. }
  split; auto. split; auto. split; [unfold sel_is_half_bounded; rewrite A, B; reflexivity|].
  unfold sel_is_bounded. rewrite El, Eu. simpl. destruct l; eauto.
Qed.
Print Assumptions C67_sides_bounded.

(** [is_bounded] itself reports whether there is a value at all. *)
Theorem C67_is_bounded_partial {T} {O : Ord T} {F : Finite T} dbg (p : prog T) s :
  inputs true p -> shallow p -> run dbg p = Ok s ->
  exists b, sel_is_bounded dbg s = Ok b /\ (b = true <-> exists x, member dbg s x).
Proof.
  intros H S E. destruct (run_gapless dbg p s H S E) as [W G].
  destruct (sel_lower_ok dbg s W G) as (l & El & Hl), (sel_upper_ok dbg s W G) as (u & Eu & Hu).
  unfold sel_is_bounded. rewrite El, Eu. simpl. destruct l as [[m|m|]|]; try tauto.
  - eexists. split; [reflexivity|]. split; auto. intros _. exists m. apply member_in; auto. apply Hl.
  - eexists. split; [reflexivity|]. destruct u as [[m|m|]|]; try tauto.
    + exfalso. apply (Hl m). apply Hu.
    + split; [discriminate|]. intros (x & Hx). apply member_in in Hx; auto. now destruct (Hl x).
Qed.
Print Assumptions C67_is_bounded_partial.
Example C67_ex : inputs true (P_union ex1 ex2) /\ shallow (P_union ex1 ex2) /\
  exists s, run true (P_union ex1 ex2) = Ok s /\ sel_is_bounded true s = Ok true /\ sel_is_left_bounded true s = Ok true.
Proof.
  split; [split; [apply ex1_inputs|apply ex2_inputs]|]. split; [simpl; tauto|]. eexists. split; [reflexivity|]. split; reflexivity.
Qed.

(** So the empty Selection is reported unbounded, although left- and
    right-bounded, and unlike [Interval::empty]. *)
Theorem C67_is_bounded_refuted :
  sel_is_bounded true (sel_new : Selection i8) = Ok false /\ sel_is_left_bounded true (sel_new : Selection i8) = Ok true /\
  sel_is_right_bounded true (sel_new : Selection i8) = Ok true /\ interval_is_bounded (interval_empty : Interval i8) = true.
Proof. repeat split. Qed.
Print Assumptions C67_is_bounded_refuted.

(** ** C68: collecting values *)

(** Collecting any list of values and iterating sorts it and removes
    duplicates; a strictly ascending list comes back unchanged. *)
Theorem C68_collect_sorts {T} {O : Ord T} {F : Finite T} dbg (l : list T) :
  exists s out, sel_from_points dbg l = Ok s /\ drains (sel_next dbg) (sel_iter s) out /\
    StronglySorted lt out /\ (forall x, In x out <-> In x l) /\
    (forall x, exists b, sel_contains dbg s x = Ok b /\ (b = true <-> In x l)) /\
    (StronglySorted lt l -> out = l).
Proof.
  destruct (C43_set_semantics dbg (P_points l) I I) as (s & E & M). simpl in E.
  destruct (C49_iteration_partial dbg (P_points l) s I I E) as (out & [L1 L2] & D & _).
  exists s, out. split; auto. split; auto. split; auto.
  assert (K : forall x, In x out <-> In x l).
  { intros x. rewrite L2. unfold member. destruct (M x) as (b & -> & Hb). simpl in Hb. rewrite <- Hb. split; congruence. }
  split; auto. split; [exact M|]. intros S. apply (lists_unique out l (fun x => In x l)); split; auto. tauto.
Qed.
Print Assumptions C68_collect_sorts.

(** Two lists with the same values give equal Selections. *)
Theorem C68_collect_equal {T} {O : Ord T} {F : Finite T} dbg (l l' : list T) s s' :
  sel_from_points dbg l = Ok s -> sel_from_points dbg l' = Ok s' ->
  (tree_eqb s s' = true <-> forall x, In x l <-> In x l').
Proof.
  intros E E'. exact (proj2 (C48_canonical dbg (P_points l) (P_points l') s s' I I E I I E')).
Qed.
Print Assumptions C68_collect_equal.
Example C68_ex : exists s, sel_from_points true [v 7; v (-2); v 8; v 7] = Ok s /\
  drains (sel_next true) (sel_iter s) [v (-2); v 7; v 8] /\
  sel_from_points true [v 8; v (-2); v 7] = Ok s.
Proof. eexists. split; [reflexivity|]. split; [drain|reflexivity]. Qed.

(** ** C69: algebra of Selections under [==] *)
Theorem C69_algebra {T} {O : Ord T} {F : Finite T} dbg (p q r : prog T) a b c :
  inputs false p -> run dbg p = Ok a -> inputs false q -> run dbg q = Ok b -> inputs false r -> run dbg r = Ok c ->
  (exists ab, sel_union dbg a b = Ok ab /\ sel_union dbg b a = Ok ab /\
     exists bc abc, sel_union dbg b c = Ok bc /\ sel_union dbg ab c = Ok abc /\ sel_union dbg a bc = Ok abc) /\
  sel_union dbg a a = Ok a /\ sel_union dbg a sel_new = Ok a /\
  sel_union dbg a sel_full = Ok sel_full /\
  (exists a', sel_complement dbg a = Ok a' /\ sel_complement dbg a' = Ok a) /\
  sel_complement dbg sel_new = Ok sel_full /\ sel_complement dbg sel_full = Ok sel_new.
Proof.
  intros Hp Ep Hq Eq Hr Er.
  pose proof (run_wf dbg p a Hp Ep) as Wa. pose proof (run_wf dbg q b Hq Eq) as Wb. pose proof (run_wf dbg r c Hr Er) as Wc.
  assert (U : forall s s' t : list (Tine T), wf s -> wf s' -> wf t -> (forall x, den false t x = den false s x || den false s' x) ->
            sel_union dbg s s' = Ok t).
  { intros s s' t Ws Ws' Wt H. unfold sel_union. destruct (tree_union_ok dbg s s' Ws Ws') as (t' & -> & W' & H'). f_equal.
    apply den_ext; auto. intros x. now rewrite H, H'. }
  assert (N : forall s t : list (Tine T), wf s -> wf t -> (forall x, den false t x = negb (den false s x)) -> sel_complement dbg s = Ok t).
  { intros s t Ws Wt H. unfold sel_complement. destruct (complement_ok dbg s Ws) as (t' & -> & W' & H'). f_equal.
    apply den_ext; auto. intros x. now rewrite H, H'. }
  assert (Wn : wf (@sel_new T)) by apply new_wf.
  assert (Dn : forall x, den false (@sel_new T) x = false) by reflexivity.
  destruct (full_den NInf) as [_ Wf]. assert (Df : forall x, den false (@sel_full T _ _) x = true) by (intros x; apply full_den).
  split; [|split; [|split; [|split; [|split; [|split]]]]].
  - destruct (tree_union_ok dbg a b Wa Wb) as (ab & E1 & W1 & H1).
    destruct (tree_union_ok dbg b c Wb Wc) as (bc & E2 & W2 & H2).
    destruct (tree_union_ok dbg ab c W1 Wc) as (abc & E3 & W3 & H3).
    exists ab. split; auto. split; [apply U; auto; intros x; rewrite H1; apply orb_comm|].
    exists bc, abc. split; auto. split; auto. apply U; auto. intros x. rewrite H3, H1, H2. symmetry. apply orb_assoc.
  - apply U; auto; intros x; now rewrite orb_diag.
  - apply U; auto; intros x; now rewrite Dn, orb_false_r.
  - apply U; auto; intros x; now rewrite Df, orb_true_r.
  - destruct (complement_ok dbg a Wa) as (a' & E & W' & H). exists a'. split; auto. apply N; auto.
    intros x. now rewrite H, negb_involutive.
  - apply N; auto; intros x; now rewrite Dn, Df.
  - apply N; auto; intros x; now rewrite Dn, Df.
Qed.
Print Assumptions C69_algebra.

(** Adding intervals one by one, by [extend], or as a collected Selection is
    the same. *)
Theorem C69_extend {T} {O : Ord T} {F : Finite T} dbg (p : prog T) a i l :
  inputs false p -> run dbg p = Ok a -> reach false i -> Forall (reach false) l ->
  (exists b c, sel_union_in_place dbg a i = Ok b /\ sel_union dbg a (sel_from i) = Ok b /\
     sel_extend dbg b l = Ok c /\ sel_extend dbg a (i :: l) = Ok c) /\
  (exists d c, sel_from_intervals dbg l = Ok d /\ sel_union dbg a d = Ok c /\ sel_extend dbg a l = Ok c).
Proof.
  intros Hp Ep Ri Rl. pose proof (run_wf dbg p a Hp Ep) as Wa.
  assert (Wi := proj1 (denorm_in i Ri)). assert (Wl := inputs_wf l Rl).
  split.
  - destruct (union_in_place_ok dbg a _ Wa Wi) as (b & E & Wb & Hb).
    destruct (extend_ok dbg (map (fun i => denormalized (interval_raw i)) l) b Wb Wl) as (c & E' & Wc & Hc).
    exists b, c. split; [exact E|]. split.
    + unfold sel_union, sel_from. destruct (from_raw_wf _ Wi) as (Wf & -> & Df).
      destruct (tree_union_ok dbg a _ Wa Wf) as (b' & -> & Wb' & Hb'). f_equal. apply den_ext; auto.
      intros x. now rewrite Hb', Hb, Df.
    + rewrite !sel_extend_tree. split; auto. simpl. rewrite E. simpl. exact E'.
  - destruct (extend_ok dbg (map (fun i => denormalized (interval_raw i)) l) [] new_wf Wl) as (d & Ed & Wd & Hd).
    destruct (extend_ok dbg (map (fun i => denormalized (interval_raw i)) l) a Wa Wl) as (c & Ec & Wc & Hc).
    exists d, c. unfold sel_from_intervals. rewrite !sel_extend_tree. split; [exact Ed|]. split; [|exact Ec].
    unfold sel_union. destruct (tree_union_ok dbg a d Wa Wd) as (c' & -> & Wc' & Hc'). f_equal. apply den_ext; auto.
    intros x. now rewrite Hc', Hc, Hd.
Qed.
Print Assumptions C69_extend.
Example C69_ex : inputs false ex1 /\ (exists s, run true ex1 = Ok s /\ sel_extend true s [cl 20 30; pt 4] = run true (P_union ex1 (P_intervals [pt 4; cl 20 30]))).
Proof. split; [apply ex1_inputs|]. eexists. split; reflexivity. Qed.

(** ** C70: exact intersection and difference by De Morgan *)
Theorem C70_by_complement {T} {O : Ord T} {F : Finite T} dbg (p q : prog T) a b :
  inputs false p -> run dbg p = Ok a -> inputs false q -> run dbg q = Ok b ->
  (exists r, run dbg (P_complement (P_union (P_complement p) (P_complement q))) = Ok r /\
     sel_is dbg r (fun x => member dbg a x /\ member dbg b x)) /\
  (exists r, run dbg (P_complement (P_union (P_complement p) q)) = Ok r /\
     sel_is dbg r (fun x => member dbg a x /\ ~ member dbg b x)).
Proof.
  intros Hp Ep Hq Eq. pose proof (run_wf dbg p a Hp Ep) as Wa. pose proof (run_wf dbg q b Hq Eq) as Wb.
  destruct (complement_ok dbg a Wa) as (a' & E1 & W1 & H1). destruct (complement_ok dbg b Wb) as (b' & E2 & W2 & H2).
  split.
  - destruct (tree_union_ok dbg a' b' W1 W2) as (u & E3 & W3 & H3). destruct (complement_ok dbg u W3) as (r & E4 & W4 & H4).
    exists r. split; [simpl; rewrite Ep, Eq; simpl; unfold sel_complement, sel_union; rewrite E1, E2; simpl; rewrite E3; exact E4|].
    intros x. exists (den false r (At x)). unfold sel_contains. rewrite tree_contains_den by auto. split; auto.
    rewrite !member_in by auto. unfold inS. rewrite H4, H3, H1, H2, negb_orb, !negb_involutive. apply andb_true_iff.
  - destruct (tree_union_ok dbg a' b W1 Wb) as (u & E3 & W3 & H3). destruct (complement_ok dbg u W3) as (r & E4 & W4 & H4).
    exists r. split; [simpl; rewrite Ep, Eq; simpl; unfold sel_complement, sel_union; rewrite E1; simpl; rewrite E3; exact E4|].
    intros x. exists (den false r (At x)). unfold sel_contains. rewrite tree_contains_den by auto. split; auto.
    rewrite !member_in by auto. unfold inS. rewrite H4, H3, H1, negb_orb, negb_involutive, andb_true_iff, negb_true_iff.
    now rewrite not_true_iff_false.
Qed.
Print Assumptions C70_by_complement.
Example C70_ex : exists r, run true (P_complement (P_union (P_complement ex1) (P_complement (P_from (cl 3 6))))) = Ok r /\
  sel_contains true r (v 3) = Ok true /\ sel_contains true r (v 4) = Ok false /\ sel_contains true r (v 6) = Ok true /\
  sel_contains true r (v 7) = Ok false.
Proof. eexists. split; [reflexivity|]. repeat split. Qed.

(** ** C71: interval_iter then collect *)
Lemma nrm_reach {T} {O : Ord T} {F : Finite T} (s : Selection T) r : wf s -> gapless (den false s) -> In r (pieces None s) -> reach true (nrm r).
Proof.
  intros W G Hr. rewrite nrm_mk. apply (R_from_raw true r).
  - now apply (piece_wf s).
  - intros _ K. destruct (piece_point s r W G Hr) as (x & Hx). apply raw_contains_points in Hx.
    destruct r; simpl in *; try tauto. forder.
Qed.

(** The intervals a Selection yields, collected again, have the same values;
    for Selections built by unions the result is equal to the original. *)
Theorem C71_round_trip_partial {T} {O : Ord T} {F : Finite T} dbg (p : prog T) s :
  inputs true p -> shallow p -> run dbg p = Ok s ->
  exists l s', sel_intervals_are dbg s l /\ sel_from_intervals dbg l = Ok s' /\
    (forall x, sel_contains dbg s x = sel_contains dbg s' x) /\ (unions_only p -> tree_eqb s s' = true).
Proof.
  intros H S E. destruct (run_gapless dbg p s H S E) as [W G].
  set (l := map nrm (pieces None s)).
  assert (Rl : Forall (reach true) l).
  { apply Forall_map, Forall_forall. intros r Hr. now apply (nrm_reach s). }
  destruct (C43_set_semantics dbg (P_intervals l)) as (s' & E' & M'); [eapply Forall_impl; [|exact Rl]; apply reach_weak|exact I|].
  exists l, s'. split; [now apply interval_iter_drains|]. split; [exact E'|].
  assert (K : forall x, sel_contains dbg s x = sel_contains dbg s' x).
  { intros x. destruct (M' x) as (b & -> & Hb). unfold sel_contains. rewrite tree_contains_den by auto. f_equal.
    apply eq_true_iff_eq. rewrite Hb. simpl. unfold some_icontains. split.
    - intros Hx. destruct (den_piece s _ W Hx) as (r & Hr & Hc). rewrite covers_At in Hc.
      exists (nrm r). split; [now apply in_map|]. now apply nrm_points.
    - intros (i & Hi & Hx). apply in_map_iff in Hi as (r & <- & Hr). apply (proj1 (nrm_points r x)) in Hx.
      apply (piece_den s r); auto. now rewrite covers_At. }
  split; auto. intros U. apply (proj1 (C48_canonical dbg p (P_intervals l) s s' H U E Rl I E')). exact K.
Qed.
Print Assumptions C71_round_trip_partial.
Example C71_ex : inputs true ex1 /\ shallow ex1 /\ unions_only ex1 /\
  (exists s, run true ex1 = Ok s /\ sel_intervals_are true s [one 1; one 3; cl 5 9] /\
     sel_from_intervals true [one 1; one 3; cl 5 9] = Ok s).
Proof.
  split; [apply ex1_inputs|]. split; [simpl; tauto|]. split; [simpl; tauto|]. eexists. split; [reflexivity|]. split; [drain|reflexivity].
Qed.

(** With a complement the collected Selection can differ from the original
    under [==]. *)
Theorem C71_round_trip_refuted :
  exists (s s' : Selection i8) l, run true ex2 = Ok s /\ sel_intervals_are true s l /\ sel_from_intervals true l = Ok s' /\ tree_eqb s s' = false.
Proof.
  eexists. eexists. exists [cl (-128) (-1); cl 5 127]. split; [reflexivity|]. split; [drain|]. split; reflexivity.
Qed.
Print Assumptions C71_round_trip_refuted.
