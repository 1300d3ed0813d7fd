(** * Proofs about Interval *)
From Coq Require Import List Bool ZArith Lia Sorted.
From Verif Require Import Base OrdFacts Pos PFinite MBound MRaw MNormalize MInterval Spec PRaw PRaw2 PNorm PIter.
Import ListNotations.

Section PInterval.
  Context {T : Type} {O : Ord T} {F : Finite T}.
  Implicit Types (i j k : Interval T) (r a b : RawInterval T) (x y : T).

  Lemma closed_wf_solid r : closed_shape r -> raw_wf r -> solid r.
  Proof. destruct r; simpl; auto. order. Qed.
  Lemma solid_shape r : solid r -> closed_shape r.
  Proof. destruct r; simpl; auto. Qed.
  Lemma tight_shape r : tight r -> closed_shape r.
  Proof. destruct r; simpl; auto. Qed.

  Lemma raw_new_closed (l u : Bound T) :
    match l, u with Include _, Include _ => True | _, _ => False end -> closed_shape (raw_new l u).
  Proof. destruct l, u; simpl; try tauto. unfold raw_closed. split_cmp; simpl; auto. Qed.

  Lemma raw_intersect_closed a b : closed_shape a -> closed_shape b -> closed_shape (raw_intersect a b).
  Proof.
    intros Ha Hb. rewrite raw_intersect_eq. destruct a, b; simpl in *; try tauto;
      match goal with |- closed_shape (if ?c then _ else _) => destruct c end; simpl; auto;
      split_cmp; simpl; unfold raw_closed; split_cmp; simpl; auto.
  Qed.
  Lemma raw_enclose_closed a b : closed_shape a -> closed_shape b -> closed_shape (raw_enclose a b).
  Proof.
    intros Ha Hb. unfold raw_enclose. destruct a, b; simpl in *; try tauto;
      split_cmp; simpl; unfold raw_closed; split_cmp; simpl; auto.
  Qed.
  Lemma raw_enclose_wf' a b : raw_wf (raw_enclose a b).
  Proof.
    unfold raw_enclose.
    destruct (match raw_lower_bound a, raw_lower_bound b with
              | Some a, Some b => _ | Some a, None => _ | None, Some b => _ | None, None => _ end); simpl; auto.
    destruct (match raw_upper_bound a, raw_upper_bound b with
              | Some a, Some b => _ | Some a, None => _ | None, Some b => _ | None, None => _ end); simpl; auto.
    apply raw_new_wf.
  Qed.

  Lemma not_gap_half r : (forall l u, r <> Open l u) -> ~ gap r.
  Proof. destruct r; simpl; intuition. eapply H; reflexivity. Qed.

  Lemma raw_new_open (lb ub : Bound T) l u : raw_new lb ub = Open l u -> lb = Exclude l /\ ub = Exclude u.
  Proof.
    destruct lb, ub; simpl; unfold raw_closed, raw_open, raw_left_open, raw_right_open;
      try discriminate; split_cmp; try discriminate. intros [= -> ->]. auto.
  Qed.

  Lemma closed_bounds r : closed_shape r ->
    r = Empty \/ exists l u, raw_lower_bound r = Some (Include l) /\ raw_upper_bound r = Some (Include u).
  Proof. destruct r; simpl; try tauto; intros _; right; eauto. Qed.

  Lemma minus_piece_not_gap a b r :
    closed_shape a -> closed_shape b -> In r (raw_complement b) -> ~ gap (raw_intersect a r).
  Proof.
    intros Ha Hb Hr. apply not_gap_half. intros l u E. rewrite raw_intersect_eq in E.
    destruct (closed_bounds a Ha) as [->|(la & ua & La & Ua)]; [discriminate|]. rewrite La, Ua in E.
    destruct b; simpl in Hb; try tauto; cbn [raw_complement In] in Hr;
      repeat (destruct Hr as [<-|Hr]; [|]); try tauto; cbn [raw_lower_bound raw_upper_bound] in E;
      match type of E with (if ?c then _ else _) = _ => destruct c eqn:K end; try discriminate;
      apply raw_new_open in E as [E1 E2]; simpl in E1, E2; discriminate.
  Qed.

  (** ** Every interval of the API is closed *)
  Definition inv (s : bool) i : Prop := if s then solid (interval_raw i) else tight (interval_raw i).

  Lemma inv_tight s i : inv s i -> tight (interval_raw i).
  Proof. destruct s; simpl; auto. apply solid_tight. Qed.
  Lemma inv_shape s i : inv s i -> closed_shape (interval_raw i).
  Proof. intros H. apply tight_shape. eapply inv_tight; eauto. Qed.

  Lemma inv_norm (s : bool) r : raw_wf r -> (s = true -> ~ gap r) -> inv s (mkInterval (normalized r)).
  Proof.
    intros W G. destruct s; simpl; [apply normalized_solid; auto|now apply normalized_tight].
  Qed.
  Lemma inv_norm2 (s : bool) r : raw_wf r -> (s = true -> ~ gap r) -> inv s (interval_from_raw (normalized r)).
  Proof. intros. unfold interval_from_raw. rewrite normalized_idem. now apply inv_norm. Qed.

  Lemma closed_not_gap r : closed_shape r -> ~ gap r.
  Proof. destruct r; simpl; tauto. Qed.

  Lemma reach_inv s i : reach s i -> inv s i.
  Proof.
    induction 1; try (apply inv_norm; simpl; auto; fail).
    - apply inv_norm; auto. apply raw_new_wf.
    - destruct s; simpl; auto.
    - destruct s; simpl; auto.
    - unfold interval_open. revert H. unfold raw_open. destruct (cmp l r) eqn:E; intros H; apply inv_norm; simpl; auto.
    - unfold interval_left_open, raw_left_open. destruct (cmp l r) eqn:E; apply inv_norm; simpl; auto.
    - unfold interval_right_open, raw_right_open. destruct (cmp l r) eqn:E; apply inv_norm; simpl; auto.
    - unfold interval_closed, raw_closed. destruct (cmp l r) eqn:E; apply inv_norm; simpl; auto.
    - unfold interval_left_closed, interval_right_open, raw_right_open. destruct (cmp l r) eqn:E; apply inv_norm; simpl; auto.
    - unfold interval_right_closed, interval_left_open, raw_left_open. destruct (cmp l r) eqn:E; apply inv_norm; simpl; auto.
    - destruct r; cbn [interval_from_range]; try (apply inv_norm; simpl; auto; fail).
      unfold raw_right_open. destruct (cmp a b) eqn:E; apply inv_norm; simpl; auto.
    - apply inv_norm2; [apply raw_intersect_wf|]. intros _. apply closed_not_gap, raw_intersect_closed; eapply inv_shape; eauto.
    - apply inv_norm2; [apply raw_enclose_wf'|]. intros _. apply closed_not_gap, raw_enclose_closed; eapply inv_shape; eauto.
    - unfold interval_closure, interval_from_raw. rewrite normalized_idem.
      assert (S := inv_shape _ _ IHreach).
      assert (E : raw_closure (interval_raw i) = interval_raw i) by (destruct (interval_raw i); simpl in *; tauto).
      rewrite E, normalized_id by auto. destruct i; auto.
    - unfold interval_union in H1. apply in_map_iff in H1 as (r & <- & Hr). unfold raw_union in Hr.
      assert (Si := inv_shape _ _ IHreach1). assert (Sj := inv_shape _ _ IHreach2).
      assert (Ii : inv s (mkInterval (normalized (interval_raw i)))) by (rewrite normalized_id by auto; now destruct i).
      assert (Ij : inv s (mkInterval (normalized (interval_raw j)))) by (rewrite normalized_id by auto; now destruct j).
      destruct (raw_is_empty (interval_raw i)), (raw_is_empty (interval_raw j)); simpl in Hr;
        repeat (destruct Hr as [<-|Hr]); try tauto.
      destruct (_ || _); simpl in Hr; repeat (destruct Hr as [<-|Hr]); try tauto.
      apply inv_norm; [apply raw_enclose_wf'|]. intros _. apply closed_not_gap, raw_enclose_closed; auto.
    - unfold interval_minus in H1. apply in_map_iff in H1 as (r & <- & Hr). unfold raw_minus in Hr.
      apply filter_In in Hr as [Hr _]. apply in_map_iff in Hr as (c & <- & Hc).
      apply inv_norm; [apply raw_intersect_wf|]. intros _.
      eapply minus_piece_not_gap; [| |exact Hc]; eapply inv_shape; eauto.
    - unfold interval_complement in H0. apply in_map_iff in H0 as (r & <- & Hr).
      assert (Si := inv_shape _ _ IHreach).
      destruct (interval_raw i); simpl in *; try tauto;
        repeat (destruct Hr as [<-|Hr]; [apply inv_norm; simpl; auto|]); tauto.
  Qed.

  Lemma reach_tight s i : reach s i -> tight (interval_raw i).
  Proof. intros H. eapply inv_tight, reach_inv; eauto. Qed.
  Lemma reach_solid i : reach true i -> solid (interval_raw i).
  Proof. intros H. exact (reach_inv true i H). Qed.

  (** ** Points *)
  Lemma interval_intersect_contains i j x :
    interval_contains (interval_intersect i j) x = interval_contains i x && interval_contains j x.
  Proof.
    unfold interval_contains, interval_intersect, interval_from_raw. cbn [interval_raw].
    rewrite !normalized_contains. apply raw_intersect_contains.
  Qed.

  Lemma some_icontains_map (l : list (RawInterval T)) x :
    some_icontains (map (fun r => mkInterval (normalized r)) l) x <-> some_contains l x.
  Proof.
    unfold some_icontains, some_contains. split.
    - intros (i & H & Hx). apply in_map_iff in H as (r & <- & Hr). exists r. split; auto.
      unfold interval_contains in Hx. simpl in Hx. now rewrite normalized_contains in Hx.
    - intros (r & Hr & Hx). exists (mkInterval (normalized r)). split; [apply in_map_iff; eauto|].
      unfold interval_contains. simpl. now rewrite normalized_contains.
  Qed.

  Lemma interval_minus_contains i j x :
    some_icontains (interval_minus i j) x <-> interval_contains i x = true /\ interval_contains j x = false.
  Proof. unfold interval_minus. rewrite some_icontains_map. apply raw_minus_contains. Qed.
  Lemma interval_complement_contains i x :
    some_icontains (interval_complement i) x <-> interval_contains i x = false.
  Proof. unfold interval_complement. rewrite some_icontains_map. apply raw_complement_contains. Qed.

  Lemma some_contains_existsb (l : list (RawInterval T)) x :
    some_contains l x <-> existsb (fun r => raw_contains r x) l = true.
  Proof. unfold some_contains. rewrite existsb_exists. tauto. Qed.

  Lemma raw_union_contains_tight a b x : tight a -> tight b -> solid a \/ solid b ->
    (some_contains (raw_union a b) x <-> raw_contains a x = true \/ raw_contains b x = true).
  Proof.
    intros Ta Tb Sab.
    destruct (raw_is_empty a) eqn:Ea.
    { destruct a; try discriminate. unfold raw_union. simpl. destruct (raw_is_empty b) eqn:Eb.
      - destruct b; try discriminate. rewrite some_contains_existsb. simpl. intuition.
      - rewrite some_contains_existsb. simpl. rewrite orb_false_r. intuition discriminate. }
    destruct (raw_is_empty b) eqn:Eb.
    { destruct b; try discriminate. unfold raw_union. rewrite Ea. simpl.
      rewrite some_contains_existsb. simpl. rewrite orb_false_r. intuition discriminate. }
    rewrite raw_union_meets by auto. rewrite some_contains_existsb.
    assert (Key : forall l u l' u',
      (le l u \/ succ u = Some l) -> (le l' u' \/ succ u' = Some l') -> (le l u \/ le l' u') ->
      raw_lower_bound a = Some (Include l) -> raw_upper_bound a = Some (Include u) ->
      raw_lower_bound b = Some (Include l') -> raw_upper_bound b = Some (Include u') ->
      (existsb (fun r => raw_contains r x) (if meets a b then [raw_enclose a b] else [a; b]) = true <->
       raw_contains a x = true \/ raw_contains b x = true)).
    2:{ destruct a as [|p| | | |l u| | | | |]; simpl in Ta; try tauto; try discriminate;
        destruct b as [|p'| | | |l' u'| | | | |]; simpl in Tb; try tauto; try discriminate;
          (eapply Key; try reflexivity; eauto; simpl in Sab; clear Key; forder). }
    intros l u l' u' H H' HH La Ua Lb Ub.
    destruct (meets a b) eqn:M; cbn [existsb]; [|rewrite !orb_true_iff; intuition discriminate].
    unfold meets in M. rewrite orb_false_r. unfold raw_is_adjacent_to in M. rewrite La, Ua, Lb, Ub in M.
    rewrite (raw_enclose_bounds a b _ _ _ _ La Ua Lb Ub), raw_new_contains.
    rewrite (raw_bounds_contains a), (raw_bounds_contains b), La, Ua, Lb, Ub.
    rewrite least_union_above, greatest_union_below.
    assert (NM : ~ mixed_at (least_union (Include l) (Include l')) (greatest_union (Include u) (Include u')) x).
    { simpl. split_cmp; simpl; tauto. }
    assert (M' : (le l u /\ le l' u' /\ le l u' /\ le l' u) \/ l = u' \/ l' = u).
    { rewrite !orb_true_iff in M. destruct M as [M|[M|M]].
      - left. unfold raw_intersects in M. rewrite raw_intersect_eq, La, Lb, Ua, Ub in M.
        destruct (leb _ _) eqn:E in M; [|discriminate]. clear -E. apply leb_iff in E.
        revert E. simpl. split_cmp; intros; porder.
      - simpl in M. right; left. now apply eqb_iff in M.
      - simpl in M. right; right. now apply eqb_iff in M. }
    assert (NM' := conj NM (False_ind _) : _ <-> False). rewrite NM'.
    simpl above. simpl below. clear - H H' HH M'.
    destruct H, H', M' as [M'|[M'|M']]; forder.
  Qed.

  Lemma interval_union_contains i j x : tight (interval_raw i) -> tight (interval_raw j) ->
    solid (interval_raw i) \/ solid (interval_raw j) ->
    (some_icontains (interval_union i j) x <-> interval_contains i x = true \/ interval_contains j x = true).
  Proof. intros. unfold interval_union. rewrite some_icontains_map. now apply raw_union_contains_tight. Qed.

  Lemma solid_cases r : solid r ->
    r = Empty \/ exists l u, raw_lower_bound r = Some (Include l) /\ raw_upper_bound r = Some (Include u) /\ le l u.
  Proof. destruct r; simpl; try tauto; intros; right; do 2 eexists; repeat split; auto. order. Qed.
  Lemma bounded_contains r l u x :
    raw_lower_bound r = Some (Include l) -> raw_upper_bound r = Some (Include u) ->
    (raw_contains r x = true <-> le l x /\ le x u).
  Proof. intros L U. now rewrite raw_bounds_contains, L, U. Qed.

  Lemma solid_extremes i m n : solid (interval_raw i) -> least (ipoints i) m -> greatest (ipoints i) n ->
    raw_lower_bound (interval_raw i) = Some (Include m) /\ raw_upper_bound (interval_raw i) = Some (Include n) /\ le m n.
  Proof.
    intros S [Hm Lm] [Hn Gn]. destruct (solid_cases _ S) as [E|(l & u & L & U & H)].
    { unfold ipoints, interval_contains in Hm. now rewrite E in Hm. }
    assert (P : forall y, ipoints i y <-> le l y /\ le y u) by (intros; now apply bounded_contains).
    rewrite P in Hm, Hn.
    assert (l = m) by (specialize (Lm l); rewrite P in Lm; order).
    assert (u = n) by (specialize (Gn u); rewrite P in Gn; order). subst. auto.
  Qed.
  Lemma bounds_extremes i m n :
    raw_lower_bound (interval_raw i) = Some (Include m) -> raw_upper_bound (interval_raw i) = Some (Include n) -> le m n ->
    least (ipoints i) m /\ greatest (ipoints i) n.
  Proof.
    intros L U H. assert (P : forall y, ipoints i y <-> le m y /\ le y n) by (intros; now apply bounded_contains).
    split; (split; [apply P; order|]); intros x Hx; apply P in Hx; order.
  Qed.

  Lemma solid_meets a b : solid a -> solid b -> meets a b = true ->
    exists x, raw_contains a x = true /\ raw_contains b x = true.
  Proof.
    intros Sa Sb M. destruct (solid_cases _ Sa) as [->|(l & u & La & Ua & H)].
    { unfold meets, raw_intersects, raw_intersect, raw_is_adjacent_to in M. simpl in M. discriminate. }
    destruct (solid_cases _ Sb) as [->|(l' & u' & Lb & Ub & H')].
    { unfold meets, raw_intersects, raw_intersect, raw_is_adjacent_to in M. rewrite La, Ua in M. simpl in M. discriminate. }
    setoid_rewrite (bounded_contains a l u); auto. setoid_rewrite (bounded_contains b l' u'); auto.
    unfold meets, raw_is_adjacent_to in M. rewrite La, Ua, Lb, Ub in M.
    rewrite !orb_true_iff in M. destruct M as [M|[M|M]].
    - unfold raw_intersects in M. rewrite raw_intersect_eq, La, Lb, Ua, Ub in M.
      destruct (leb _ _) eqn:E in M; [|discriminate]. clear - E H H'. apply leb_iff in E.
      assert (G : le l u' /\ le l' u) by (revert E; simpl; split_cmp; intros; porder).
      clear E. destruct (leb l l') eqn:E; [exists l'|exists l]; order.
    - simpl in M. apply eqb_iff in M. subst. exists u'. clear - H H'. order.
    - simpl in M. apply eqb_iff in M. subst. exists u. clear - H H'. order.
  Qed.

  (** The enclosure is the hull of the points of the two intervals. *)
  Lemma raw_enclose_hull a b x : solid a -> solid b ->
    (raw_contains (raw_enclose a b) x = true <->
     exists y z, (raw_contains a y = true \/ raw_contains b y = true) /\
                 (raw_contains a z = true \/ raw_contains b z = true) /\ le y x /\ le x z).
  Proof.
    intros Sa Sb.
    destruct (solid_cases a Sa) as [->|(l & u & La & Ua & H)], (solid_cases b Sb) as [->|(l' & u' & Lb & Ub & H')].
    - simpl. split; [discriminate|]. intros (? & ? & [?|?] & _); discriminate.
    - unfold raw_enclose. simpl raw_lower_bound. simpl raw_upper_bound. rewrite Lb, Ub, raw_new_contains. simpl mixed_at.
      split.
      + intros [[]|[]]. exists l', u'. rewrite !(bounded_contains b l' u') by auto. simpl in *.
        repeat split; auto; right; order.
      + intros (y & z & [Hy|Hy] & [Hz|Hz] & ? & ?); try discriminate. left.
        rewrite (bounded_contains b l' u') in Hy, Hz by auto. simpl. order.
    - unfold raw_enclose. simpl raw_lower_bound. simpl raw_upper_bound. rewrite La, Ua, raw_new_contains. simpl mixed_at.
      split.
      + intros [[]|[]]. exists l, u. rewrite !(bounded_contains a l u) by auto. simpl in *.
        repeat split; auto; left; order.
      + intros (y & z & [Hy|Hy] & [Hz|Hz] & ? & ?); try discriminate. left.
        rewrite (bounded_contains a l u) in Hy, Hz by auto. simpl. order.
    - rewrite (raw_enclose_bounds a b _ _ _ _ La Ua Lb Ub), raw_new_contains, least_union_above, greatest_union_below.
      assert (N : mixed_at (least_union (Include l) (Include l')) (greatest_union (Include u) (Include u')) x <-> False).
      { simpl. split_cmp; simpl; tauto. }
      rewrite N. simpl above. simpl below. clear N. split.
      + intros [[[Hl|Hl] [Hu|Hu]]|[]];
          [exists l, u | exists l, u' | exists l', u | exists l', u'];
          rewrite !(bounded_contains a l u), !(bounded_contains b l' u') by auto; order.
      + intros (y & z & Hy & Hz & ? & ?). left.
        rewrite !(bounded_contains a l u), !(bounded_contains b l' u') in Hy by auto.
        rewrite !(bounded_contains a l u), !(bounded_contains b l' u') in Hz by auto. order.
  Qed.

  Lemma interval_enclose_contains i j x : solid (interval_raw i) -> solid (interval_raw j) ->
    (interval_contains (interval_enclose i j) x = true <->
     exists y z, (interval_contains i y = true \/ interval_contains j y = true) /\
                 (interval_contains i z = true \/ interval_contains j z = true) /\ le y x /\ le x z).
  Proof.
    unfold interval_contains, interval_enclose, interval_from_raw. cbn [interval_raw].
    rewrite !normalized_contains. apply raw_enclose_hull.
  Qed.

  Lemma interval_closure_id i : closed_shape (interval_raw i) -> interval_closure i = i.
  Proof.
    intros S. unfold interval_closure, interval_from_raw. rewrite normalized_idem.
    assert (E : raw_closure (interval_raw i) = interval_raw i) by (destruct (interval_raw i); simpl in *; tauto).
    rewrite E, normalized_id by auto. destruct i; auto.
  Qed.

  (** ** Iteration *)
  Lemma finite_list l u : exists s, StronglySorted lt s /\ forall x, In x s <-> le l x /\ le x u.
  Proof.
    destruct finite_embed as (fr & N & E).
    assert (G : forall n l, (fr u - fr l < Z.of_nat n)%Z -> exists s, StronglySorted lt s /\ forall x, In x s <-> le l x /\ le x u).
    { induction n as [|n IH]; intros l' Hn.
      - exists []. split; [constructor|]. intros x. simpl. split; [tauto|]. intros [H1 H2].
        apply (fe_le _ _ E) in H1, H2. lia.
      - destruct (succ l') as [m|] eqn:Em.
        + assert (fr m = fr l' + 1)%Z by (now apply (fe_succ _ _ E)).
          destruct (IH m) as (s & Hs & Hx); [lia|].
          destruct (Z_le_gt_dec (fr l') (fr u)).
          * exists (l' :: s). split.
            -- constructor; auto. apply Forall_forall. intros x Hin. apply Hx in Hin. clear - Hin Em. forder.
            -- intros x. cbn [In]. rewrite Hx. rewrite <- (fe_le _ _ E) in l0. clear - Em l0. forder.
          * exists []. split; [constructor|]. intros x. simpl. split; [tauto|]. intros [H1 H2].
            apply (fe_le _ _ E) in H1, H2. lia.
        + destruct (Z_le_gt_dec (fr l') (fr u)).
          * exists [l']. split; [repeat constructor|]. intros x. cbn [In]. rewrite <- (fe_le _ _ E) in l0. clear - Em l0. forder.
          * exists []. split; [constructor|]. intros x. simpl. split; [tauto|]. intros [H1 H2].
            apply (fe_le _ _ E) in H1, H2. lia. }
    apply (G (S (Z.to_nat (fr u - fr l)))). lia.
  Qed.

  Lemma solid_lists i : solid (interval_raw i) -> exists l, lists l (ipoints i).
  Proof.
    intros S. destruct (solid_cases _ S) as [E|(l & u & L & U & H)].
    - exists []. split; [constructor|]. intros x. unfold ipoints, interval_contains. rewrite E. simpl. intuition discriminate.
    - destruct (finite_list l u) as (s & Hs & Hx). exists s. split; auto. intros x. rewrite Hx.
      unfold ipoints, interval_contains. symmetry. now apply bounded_contains.
  Qed.

  Definition irep i (l : list T) : Prop := solid (interval_raw i) /\ lists l (ipoints i).

  Lemma irep_nil i : irep i [] -> interval_raw i = Empty.
  Proof.
    intros [S [_ H]]. destruct (solid_cases _ S) as [E|(l & u & L & U & Hlu)]; auto. exfalso.
    apply (proj2 (H l)). unfold ipoints, interval_contains. rewrite (bounded_contains _ l u) by auto. order.
  Qed.

  Lemma sorted_app_lt (l : list T) x : StronglySorted lt (l ++ [x]) -> StronglySorted lt l /\ Forall (fun y => lt y x) l.
  Proof.
    induction l as [|y l IH]; simpl; intros H; [repeat constructor|].
    inversion H as [|? ? H1 H2]; subst. destruct (IH H1) as [H3 H4].
    apply Forall_app in H2 as [H2 H5]. inversion H5; subst. split; constructor; auto.
  Qed.

  Lemma le_cases x y : le x y -> x = y \/ (cmp x y = Lt /\ cmp y x = Gt).
  Proof. intros H. destruct (cmp x y) eqn:E; order. Qed.

  Ltac run := unfold raw_minus, raw_intersect, raw_new, raw_closed, raw_open, raw_left_open, raw_right_open,
                greatest_intersect, least_intersect, opt_eqb, bound_as_ref, ltb, leb, gtb, geb, eqb;
    repeat (rewrite ?cmp_refl;
            repeat match goal with H : cmp ?x ?y = _ |- context [cmp ?x ?y] => rewrite H end;
            cbn -[normalized cmp]).

  Lemma interval_eta i : i = mkInterval (interval_raw i).
  Proof. now destruct i. Qed.

  Lemma next_bounds r l u :
    solid r -> raw_lower_bound r = Some (Include l) -> raw_upper_bound r = Some (Include u) ->
    interval_next (mkInterval r) =
      Ok (Some l, mkInterval (if eqb l u then Empty else normalized (LeftOpen l u))).
  Proof.
    intros S L U. unfold interval_next, interval_lower_bound, interval_minus, interval_from_point.
    cbn [interval_raw normalized]. rewrite L. f_equal. f_equal.
    destruct r as [|p| | | |l' u'| | | | |]; simpl in S; try tauto; try discriminate.
    - injection L as <-. injection U as <-. run. reflexivity.
    - injection L as <-. injection U as <-. apply le_cases in S as [->|[H1 H2]]; run; reflexivity.
  Qed.

  Lemma next_back_bounds r l u :
    solid r -> raw_lower_bound r = Some (Include l) -> raw_upper_bound r = Some (Include u) ->
    interval_next_back (mkInterval r) =
      Ok (Some u, mkInterval (if eqb l u then Empty else normalized (RightOpen l u))).
  Proof.
    intros S L U. unfold interval_next_back, interval_upper_bound, interval_minus, interval_from_point.
    cbn [interval_raw normalized]. rewrite U. f_equal. f_equal.
    destruct r as [|p| | | |l' u'| | | | |]; simpl in S; try tauto; try discriminate.
    - injection L as <-. injection U as <-. run. reflexivity.
    - injection L as <-. injection U as <-. apply le_cases in S as [->|[H1 H2]]; run; reflexivity.
  Qed.

  Lemma irep_front i x l : irep i (x :: l) -> exists i', interval_next i = Ok (Some x, i') /\ irep i' l.
  Proof.
    intros [S [Hs Hx]]. inversion Hs as [|? ? Hs' Hf]; subst.
    destruct (solid_cases _ S) as [E|(a & b & L & U & H)].
    { exfalso. specialize (proj1 (Hx x) (or_introl eq_refl)). unfold ipoints, interval_contains. now rewrite E. }
    assert (P : forall y, In y (x :: l) <-> le a y /\ le y b).
    { intros y. rewrite Hx. unfold ipoints, interval_contains. now apply bounded_contains. }
    rewrite Forall_forall in Hf.
    assert (a = x).
    { assert (Ia : In a (x :: l)) by (apply P; order). assert (Ix := proj1 (P x) (or_introl eq_refl)).
      destruct Ia as [->|Ia]; auto. specialize (Hf _ Ia). order. }
    subst a. rewrite (interval_eta i), (next_bounds _ x b) by auto. eexists; split; [reflexivity|].
    split; [|split; auto].
    - cbn [interval_raw]. destruct (eqb x b) eqn:E; [exact I|].
      apply normalized_solid; [simpl; order|intros []].
    - intros y. unfold ipoints, interval_contains. cbn [interval_raw].
      assert (Q : In y l <-> lt x y /\ le y b).
      { split.
        - intros Hy. split; [now apply Hf|]. apply (proj1 (P y)). now right.
        - intros [H1 H2]. destruct (proj2 (P y)) as [->|]; auto; order. }
      rewrite Q. destruct (eqb x b) eqn:E; [simpl; order|].
      rewrite normalized_contains. simpl. order.
  Qed.

  Lemma irep_back i x l : irep i (l ++ [x]) -> exists i', interval_next_back i = Ok (Some x, i') /\ irep i' l.
  Proof.
    intros [S [Hs Hx]]. apply sorted_app_lt in Hs as [Hs' Hf].
    destruct (solid_cases _ S) as [E|(a & b & L & U & H)].
    { exfalso. specialize (proj1 (Hx x)). rewrite in_app_iff. simpl In. unfold ipoints, interval_contains. rewrite E.
      simpl. intros K. discriminate K. auto. }
    assert (P : forall y, In y (l ++ [x]) <-> le a y /\ le y b).
    { intros y. rewrite Hx. unfold ipoints, interval_contains. now apply bounded_contains. }
    rewrite Forall_forall in Hf. setoid_rewrite in_app_iff in P. simpl in P.
    assert (b = x).
    { assert (Ib := proj2 (P b)). assert (Ix := proj1 (P x) (or_intror (or_introl eq_refl))).
      destruct Ib as [Ib|[<-|[]]]; auto; [order|]. specialize (Hf _ Ib). order. }
    subst b. rewrite (interval_eta i), (next_back_bounds _ a x) by auto. eexists; split; [reflexivity|].
    split; [|split; auto].
    - cbn [interval_raw]. destruct (eqb a x) eqn:E; [exact I|].
      apply normalized_solid; [simpl; order|intros []].
    - intros y. unfold ipoints, interval_contains. cbn [interval_raw].
      assert (Q : In y l <-> le a y /\ lt y x).
      { split.
        - intros Hy. split; [|now apply Hf]. apply (proj1 (P y)). now left.
        - intros [H1 H2]. destruct (proj2 (P y)) as [K|[<-|[]]]; auto; order. }
      rewrite Q. destruct (eqb a x) eqn:E; [simpl; order|].
      rewrite normalized_contains. simpl. order.
  Qed.

  Lemma irep_runs i l : irep i l -> forall sched,
    runs interval_next interval_next_back i sched (deque_run l sched).
  Proof.
    intros R sched. eapply (runs_of_rep _ _ irep); eauto.
    - intros it H. exists it. split; auto. apply irep_nil in H. unfold interval_next, interval_lower_bound. now rewrite H.
    - intros; now apply irep_front.
    - intros it H. exists it. split; auto. apply irep_nil in H. unfold interval_next_back, interval_upper_bound. now rewrite H.
    - intros; now apply irep_back.
  Qed.
  Lemma irep_drains i l : irep i l -> drains interval_next i l.
  Proof.
    apply (drains_of_rep _ irep).
    - intros it H. exists it. apply irep_nil in H. unfold interval_next, interval_lower_bound. now rewrite H.
    - intros; now apply irep_front.
  Qed.
  Lemma irep_drains_back i l : irep i l -> drains interval_next_back i (rev l).
  Proof.
    intros H. apply (drains_of_rep _ (fun i l => irep i (rev l))); [| |now rewrite rev_involutive].
    - intros it R. exists it. apply irep_nil in R. unfold interval_next_back, interval_upper_bound. now rewrite R.
    - intros it x k R. simpl in R. now apply irep_back.
  Qed.

  Lemma lists_unique (l m : list T) P : lists l P -> lists m P -> l = m.
  Proof.
    intros [Sl Hl] [Sm Hm]. assert (H : forall x, In x l <-> In x m) by (intros; now rewrite Hl, Hm).
    clear Hl Hm. revert m Sm H. induction Sl as [|a l Sl IH Fl]; intros m Sm H.
    - destruct m as [|b m]; auto. exfalso. now apply (proj2 (H b)); left.
    - destruct Sm as [|b m Sm Fm]; [exfalso; now apply (proj1 (H a)); left|].
      rewrite Forall_forall in Fl, Fm.
      assert (a = b).
      { destruct (proj1 (H a) (or_introl eq_refl)) as [|Ia]; auto.
        destruct (proj2 (H b) (or_introl eq_refl)) as [|Ib]; auto.
        specialize (Fl _ Ib). specialize (Fm _ Ia). order. }
      subst b. f_equal. apply IH; auto. intros x. split; intros Hx.
      + destruct (proj1 (H x) (or_intror Hx)) as [<-|]; auto. specialize (Fl _ Hx). order.
      + destruct (proj2 (H x) (or_intror Hx)) as [<-|]; auto. specialize (Fm _ Hx). order.
  Qed.
End PInterval.
