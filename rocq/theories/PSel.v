(** * Proofs about Selections *)
From Coq Require Import List Bool ZArith Lia Sorted.
From Verif Require Import Base OrdFacts Pos PFinite MBound MRaw MNormalize MTine MBTree MTineTree MInterval MSelection
  Spec Spec_Tree Spec_Sel PRaw PRaw2 PNorm PIter PInterval PBTree PTree PTreeOps PTreeIsect PTree2 PTree3 PTree4 PTree5 PTree6 PTree7.
Import ListNotations.
Local Arguments cmp : simpl never.

Section PSel.
  Context {T : Type} {O : Ord T} {F : Finite T}.
  Implicit Types (s : Selection T) (r : RawInterval T) (x y : T).

  (** ** Membership before, between and after the values *)
  Lemma denorm_not_point r x : closed_shape r -> denormalized r <> Point x.
  Proof. destruct r; simpl; try tauto; intros _; try discriminate; destruct (pred _), (succ _); discriminate. Qed.

  (** Present next to a value iff present at it or at its neighbour: a union of
      open intervals between missing values. *)
  Definition open_cov (c : pos T -> bool) : Prop :=
    (forall x, c (Hi x) = c (At x) || match succ x with Some y => c (At y) | None => false end) /\
    (forall x, c (Lo x) = c (At x) || match pred x with Some y => c (At y) | None => false end) /\
    c NInf = c (At MINIMUM) /\ c PInf = c (At MAXIMUM).

  Lemma cov_open (a b x : T) :
    covers (Open a b) (Hi x) = leb a x && ltb x b /\ covers (Open a b) (Lo x) = ltb a x && leb x b /\
    covers (Open a b) NInf = false /\ covers (Open a b) PInf = false.
  Proof. unfold covers; simpl. repeat split; porder. Qed.
  Lemma cov_upto (b x : T) :
    covers (UpTo b) (Hi x) = ltb x b /\ covers (UpTo b) (Lo x) = leb x b /\
    covers (UpTo b) NInf = true /\ covers (UpTo b) PInf = false.
  Proof. unfold covers; simpl. repeat split; porder. Qed.
  Lemma cov_upfrom (a x : T) :
    covers (UpFrom a) (Hi x) = leb a x /\ covers (UpFrom a) (Lo x) = ltb a x /\
    covers (UpFrom a) NInf = false /\ covers (UpFrom a) PInf = true.
  Proof. unfold covers; simpl. repeat split; porder. Qed.

  Ltac split_fin :=
    repeat match goal with
    | |- context [match succ ?x with _ => _ end] => destruct (succ x) eqn:?
    | |- context [match pred ?x with _ => _ end] => destruct (pred x) eqn:?
    end.
  Ltac covs E :=
    repeat split; intros; rewrite ?covers_At; cbn [raw_contains];
      try match goal with |- covers _ (_ ?x) = _ => destruct (E x) as (E1 & E2 & _); rewrite ?E1, ?E2 end;
      try (destruct (E MINIMUM) as (_ & _ & E1 & E2); rewrite ?E1, ?E2);
      split_fin; rewrite ?covers_At; cbn [raw_contains]; try forder.

  Lemma open_cov_open a b m : lt a m -> lt m b -> open_cov (covers (Open a b)).
  Proof. intros H1 H2. covs (cov_open a b). Qed.
  Lemma open_cov_upto b : lt MINIMUM b -> open_cov (covers (UpTo b)).
  Proof. intros H1. covs (cov_upto b). Qed.
  Lemma open_cov_upfrom a : lt a MAXIMUM -> open_cov (covers (UpFrom a)).
  Proof. intros H1. covs (cov_upfrom a). Qed.
  Lemma open_cov_full : open_cov (covers (@Full T)).
  Proof. repeat split. Qed.
  Lemma open_cov_empty : open_cov (covers (@Empty T)).
  Proof. repeat split; intros; rewrite !covers_empty; split_fin; rewrite ?covers_empty; auto. Qed.

  Lemma denorm_open r : solid r -> open_cov (covers (denormalized r)).
  Proof.
    destruct r as [|p| | | |l u| | | | |]; simpl; try tauto; intros H; split_fin.
    - apply open_cov_empty.
    - apply (open_cov_open _ _ p); forder.
    - apply open_cov_upto; forder.
    - apply open_cov_upfrom; forder.
    - apply open_cov_full.
    - apply (open_cov_open _ _ l); forder.
    - apply open_cov_upto; forder.
    - apply open_cov_upfrom; forder.
    - apply open_cov_full.
  Qed.

  Lemma open_cov_ext (c c' : pos T -> bool) : (forall p, c p = c' p) -> open_cov c' -> open_cov c.
  Proof.
    intros H (A & B & C & E). repeat split; intros; rewrite ?H; rewrite ?A, ?B, ?C, ?E; auto; split_fin; rewrite ?H; auto.
  Qed.
  Lemma open_cov_or (c c' : pos T -> bool) : open_cov c -> open_cov c' -> open_cov (fun p => c p || c' p).
  Proof.
    intros (A & B & C & E) (A' & B' & C' & E').
    repeat split; intros; rewrite ?A, ?B, ?C, ?E, ?A', ?B', ?C', ?E'; auto; split_fin;
      repeat match goal with |- context [c ?p] => destruct (c p) end;
      repeat match goal with |- context [c' ?p] => destruct (c' p) end; auto.
  Qed.

  (** Presence next to a value is always due to a present value. *)
  Definition gapless (c : pos T -> bool) : Prop :=
    (forall x, c (Hi x) = true -> c (At x) = true \/ exists y, succ x = Some y /\ c (At y) = true) /\
    (forall x, c (Lo x) = true -> c (At x) = true \/ exists y, pred x = Some y /\ c (At y) = true) /\
    (c NInf = true -> c (At MINIMUM) = true) /\ (c PInf = true -> c (At MAXIMUM) = true).

  Lemma gapless_ext (c c' : pos T -> bool) : (forall p, c p = c' p) -> gapless c' -> gapless c.
  Proof.
    intros H (A & B & C & E). unfold gapless. repeat split; intros; rewrite ?H in *; auto.
    - destruct (A x H0) as [|(y & E1 & E2)]; auto. right. exists y. now rewrite H.
    - destruct (B x H0) as [|(y & E1 & E2)]; auto. right. exists y. now rewrite H.
  Qed.
  Lemma open_gapless (c : pos T -> bool) : open_cov c -> gapless c.
  Proof.
    intros (A & B & C & E). unfold gapless. repeat split; intros; rewrite ?A, ?B, ?C, ?E in *; auto;
      apply orb_true_iff in H as [H|H]; auto; right.
    - destruct (succ x); [eauto|discriminate].
    - destruct (pred x); [eauto|discriminate].
  Qed.
  Lemma gapless_or (c c' : pos T -> bool) : gapless c -> gapless c' -> gapless (fun p => c p || c' p).
  Proof.
    intros (A & B & C & E) (A' & B' & C' & E'). unfold gapless.
    repeat split; intros; rewrite orb_true_iff in *; try (intuition fail).
    - destruct H as [H|H]; [apply A in H|apply A' in H]; destruct H as [H|(y & H1 & H2)]; auto; right; exists y; rewrite H2, ?orb_true_r; auto.
    - destruct H as [H|H]; [apply B in H|apply B' in H]; destruct H as [H|(y & H1 & H2)]; auto; right; exists y; rewrite H2, ?orb_true_r; auto.
  Qed.
  Lemma gapless_not (c : pos T -> bool) : open_cov c -> gapless (fun p => negb (c p)).
  Proof.
    intros (A & B & C & E). unfold gapless. repeat split; intros; rewrite ?A, ?B, ?C, ?E in *; auto;
      left; destruct (c (At x)); auto.
  Qed.

  Lemma gapless_minus (c k h : pos T -> bool) : gapless c -> open_cov k -> (forall p, h p = true -> exists x, p = At x) ->
    gapless (fun p => (c p && negb (k p)) || h p).
  Proof.
    intros (A & B & C & E) (A' & B' & C' & E') Hh. unfold gapless.
    assert (Kh : forall q, (forall x, q <> At x) -> h q = false).
    { intros q Hq. destruct (h q) eqn:Eq; auto. apply Hh in Eq as [x ->]. now destruct (Hq x). }
    repeat split; intros; rewrite ?(Kh NInf), ?(Kh PInf), ?(Kh (Hi x)), ?(Kh (Lo x)), ?orb_false_r in H by discriminate;
      apply andb_true_iff in H as [H1 H2]; apply negb_true_iff in H2.
    - rewrite A' in H2. apply orb_false_iff in H2 as [H2 H3]. destruct (A x H1) as [K|(y & S & K)].
      + left. now rewrite K, H2.
      + right. exists y. rewrite S in H3. rewrite K, H3. auto.
    - rewrite B' in H2. apply orb_false_iff in H2 as [H2 H3]. destruct (B x H1) as [K|(y & S & K)].
      + left. now rewrite K, H2.
      + right. exists y. rewrite S in H3. rewrite K, H3. auto.
    - rewrite <- C', H2, (C H1). auto.
    - rewrite <- E', H2, (E H1). auto.
  Qed.
  Lemma fills_At s (d : Bound T) p : fills s d p = true -> exists x, p = At x.
  Proof.
    destruct d as [y|y|]; simpl; try discriminate; destruct (cmp p (At y)) eqn:E; try discriminate; intros _;
      apply cmp_eq in E; eauto.
  Qed.

  (** ** Running programs *)
  Lemma denorm_in i : reach false i -> raw_wf (denormalized (interval_raw i)) /\
    (forall x, denormalized (interval_raw i) <> Point x) /\
    (forall x, covers (denormalized (interval_raw i)) (At x) = true <-> ipoints i x).
  Proof.
    intros R. apply reach_tight in R. split; [now apply denormalized_tight_wf|]. split.
    - intros x. apply denorm_not_point. now apply tight_shape.
    - intros x. rewrite covers_At, denormalized_tight_contains by auto. reflexivity.
  Qed.
  Lemma reach_weak i : reach true i -> reach false i.
  Proof.
    induction 1;
      [apply R_new|apply R_empty|apply R_point|apply R_open|apply R_left_open|apply R_right_open|apply R_closed
      |apply R_left_closed|apply R_right_closed|apply R_unbounded_from|apply R_unbounded_to|apply R_unbounded_up_from
      |apply R_unbounded_up_to|apply R_full|apply R_from_raw|apply R_from_point|apply R_from_range|apply R_intersect
      |apply R_enclose|apply R_closure|apply (R_union _ i j)|apply (R_minus _ i j)|apply (R_complement _ i)];
      auto; discriminate.
  Qed.

  Lemma sel_extend_tree dbg l : forall s, sel_extend dbg s l = tree_extend dbg s (map (fun i => denormalized (interval_raw i)) l).
  Proof.
    induction l as [|i l IH]; intros s; simpl; auto. destruct (tree_union_in_place dbg s _); simpl; auto.
  Qed.
  Lemma lcovers_inputs l x : Forall (reach false) l ->
    (lcovers (map (fun i => denormalized (interval_raw i)) l) (At x) = true <-> some_icontains l x).
  Proof.
    intros H. rewrite lcovers_ex. unfold some_icontains. split.
    - intros (r & Hr & Hx). apply in_map_iff in Hr as (i & <- & Hin). exists i. split; auto.
      rewrite Forall_forall in H. now apply (denorm_in i (H i Hin)).
    - intros (i & Hin & Hx). exists (denormalized (interval_raw i)). split; [apply in_map_iff; eauto|].
      rewrite Forall_forall in H. now apply (denorm_in i (H i Hin)).
  Qed.
  Lemma inputs_wf l : Forall (reach false) l -> Forall raw_wf (map (fun i => denormalized (interval_raw i)) l).
  Proof. intros H. apply Forall_map. eapply Forall_impl; [|exact H]. intros i R. now apply denorm_in. Qed.
  Lemma lcovers_open l : Forall (reach true) l -> open_cov (lcovers (map (fun i => denormalized (interval_raw i)) l)).
  Proof.
    induction 1 as [|i l H _ IH]; [repeat split; intros; simpl; split_fin; auto|].
    change (lcovers (map _ (i :: l))) with (fun p => covers (denormalized (interval_raw i)) p || lcovers (map (fun i => denormalized (interval_raw i)) l) p).
    apply open_cov_or; auto. apply denorm_open. now apply reach_solid.
  Qed.
  Lemma inputs_weak p : inputs true p -> inputs false p.
  Proof.
    induction p; simpl; try tauto; try (intros [A B]; split; auto); try apply reach_weak; auto;
      try (apply Forall_impl; apply reach_weak); try (eapply Forall_impl; [apply reach_weak|eassumption]).
  Qed.
  Lemma points_reach (l : list T) strict : Forall (reach strict) (map interval_point l).
  Proof. apply Forall_map. apply Forall_forall. intros; constructor. Qed.
  Lemma points_contains (l : list T) x : some_icontains (map interval_point l) x <-> In x l.
  Proof.
    unfold some_icontains. split.
    - intros (i & H & Hx). apply in_map_iff in H as (y & <- & Hy). unfold interval_contains in Hx. simpl in Hx.
      assert (x = y) by order. now subst.
    - intros H. exists (interval_point x). split; [now apply in_map|]. unfold interval_contains. simpl. order.
  Qed.
  Lemma full_den p : den false (@sel_full T _ _) p = true /\ wf (@sel_full T _ _).
  Proof.
    assert (E : denormalized (Closed (MINIMUM : T) MAXIMUM) = Full).
    { simpl. rewrite (proj2 (pred_none MINIMUM)), (proj2 (succ_none MAXIMUM)); auto. }
    unfold sel_full, sel_from. cbn [interval_raw interval_full]. unfold interval_full. cbn [interval_raw normalized]. rewrite E.
    destruct (from_raw_wf (@Full T) I) as (W & Eq & Dn). rewrite Eq. split; auto. rewrite Dn. apply covers_full.
  Qed.

  Lemma run_ok dbg p : inputs false p -> exists s, run dbg p = Ok s /\ wf s /\
    (boolean p -> forall x, den false s (At x) = true <-> means p x) /\
    (inputs true p -> unions_only p -> open_cov (den false s)) /\
    (inputs true p -> shallow p -> gapless (den false s)).
  Proof.
    induction p as [| |i|l|l|p IH l|p IH i|p IH1 q IH2|p IH|p IH1 q IH2|p IH i]; simpl; intros H.
    - exists []. split; auto. split; [apply new_wf|]. split; [intros _ x; simpl; intuition discriminate|].
      assert (open_cov (den false (@nil (Tine T)))) by (repeat split; intros; simpl; split_fin; auto). split; auto using open_gapless.
    - exists sel_full. split; auto. split; [apply (full_den NInf)|]. split; [intros _ x; split; auto; intros; apply full_den|].
      assert (open_cov (den false (@sel_full T _ _))).
      { apply (open_cov_ext _ (fun _ => true)); [intros; apply full_den|]. repeat split. }
      split; auto using open_gapless.
    - destruct (denorm_in i H) as (W & _ & C). destruct (from_raw_wf _ W) as (W' & E & Dn). unfold sel_from.
      exists (tree_from_raw_interval (denormalized (interval_raw i))). rewrite E. split; auto. split; auto.
      split; [intros _ x; now rewrite Dn|].
      assert (inputs true (P_from i) -> open_cov (den false (tine_from_raw_interval (denormalized (interval_raw i))))).
      { intros R. apply (open_cov_ext _ _ Dn). apply denorm_open. now apply reach_solid. }
      split; auto using open_gapless.
    - unfold sel_from_intervals. rewrite sel_extend_tree.
      destruct (extend_ok dbg _ [] new_wf (inputs_wf l H)) as (s & E & W & Dn). exists s. split; auto. split; auto.
      split; [intros _ x; rewrite Dn; simpl; now apply lcovers_inputs|].
      assert (Forall (reach true) l -> open_cov (den false s)).
      { intros R. apply (open_cov_ext _ _ Dn). apply (lcovers_open l R). }
      split; auto using open_gapless.
    - unfold sel_from_points. rewrite sel_extend_tree.
      destruct (extend_ok dbg _ [] new_wf (inputs_wf _ (points_reach l false))) as (s & E & W & Dn). exists s. split; auto. split; auto.
      split; [intros _ x; rewrite Dn; simpl; rewrite lcovers_inputs by apply points_reach; apply points_contains|].
      assert (open_cov (den false s)).
      { apply (open_cov_ext _ _ Dn). apply (lcovers_open _ (points_reach l true)). }
      split; auto using open_gapless.
    - destruct H as [H1 H2]. destruct (IH H1) as (s & -> & W & M & Op & Gp). simpl. rewrite sel_extend_tree.
      destruct (extend_ok dbg _ s W (inputs_wf l H2)) as (s' & E & W' & Dn). exists s'. split; auto. split; auto.
      split; [intros B x; rewrite Dn, orb_true_iff, (M B), lcovers_inputs by auto; reflexivity|].
      split; intros [R1 R2] U; [apply (open_cov_ext _ _ Dn)|apply (gapless_ext _ _ Dn)].
      + apply open_cov_or; auto using lcovers_open.
      + apply gapless_or; auto using lcovers_open, open_gapless.
    - destruct H as [H1 H2]. destruct (IH H1) as (s & -> & W & M & Op & Gp). simpl. unfold sel_union_in_place.
      destruct (denorm_in i H2) as (Wi & _ & C).
      destruct (union_in_place_ok dbg s _ W Wi) as (s' & E & W' & Dn). exists s'. split; auto. split; auto.
      split; [intros B x; rewrite Dn, orb_true_iff, (M B), C by auto; reflexivity|].
      split; intros [R1 R2] U; [apply (open_cov_ext _ _ Dn)|apply (gapless_ext _ _ Dn)].
      + apply open_cov_or; auto using denorm_open, reach_solid.
      + apply gapless_or; auto using denorm_open, reach_solid, open_gapless.
    - destruct H as [H1 H2]. destruct (IH1 H1) as (s & -> & W & M & Op & Gp), (IH2 H2) as (s2 & -> & W2 & M2 & Op2 & Gp2). simpl. unfold sel_union.
      destruct (tree_union_ok dbg s s2 W W2) as (s' & E & W' & Dn). exists s'. split; auto. split; auto.
      split; [intros [B B'] x; rewrite Dn, orb_true_iff, (M B), (M2 B') by auto; reflexivity|].
      split; intros [R1 R2] [U U']; [apply (open_cov_ext _ _ Dn)|apply (gapless_ext _ _ Dn)].
      + apply open_cov_or; auto.
      + apply gapless_or; auto.
    - destruct (IH H) as (s & -> & W & M & Op & Gp). simpl. unfold sel_complement.
      destruct (complement_ok dbg s W) as (s' & E & W' & Dn). exists s'. split; auto. split; auto.
      split.
      { intros B x. rewrite Dn, negb_true_iff, <- (M B x). destruct (den false s (At x)); split; congruence. }
      split; [tauto|]. intros R U. apply (gapless_ext _ _ Dn), gapless_not; auto.
    - destruct H as [H1 H2]. destruct (IH1 H1) as (s & -> & W & _), (IH2 H2) as (s2 & -> & W2 & _). simpl. unfold sel_intersect.
      destruct (tree_intersect_sound dbg s s2 W W2) as (s' & E & W' & _). exists s'. split; auto. split; auto. tauto.
    - destruct H as [H1 H2]. destruct (IH H1) as (s & -> & W & _ & _ & Gp). simpl. unfold sel_minus_in_place.
      destruct (denorm_in i H2) as (Wi & NP & _).
      destruct (minus_in_place_proper dbg s _ W Wi NP) as (s' & E & W' & Dn). exists s'. split; auto. split; auto. split; [tauto|]. split; [tauto|].
      intros [R1 R2] U. apply (gapless_ext _ _ Dn).
      apply gapless_minus; [auto|apply denorm_open; now apply reach_solid|].
      intros q Hq. destruct (raw_lower_bound _) as [lo|]; [|discriminate]. destruct (raw_upper_bound _) as [up|]; [|discriminate].
      apply orb_true_iff in Hq as [Hq|Hq]; eapply fills_At; eauto.
  Qed.
End PSel.
