(** * Every operation on raw intervals, and each single step on trees, commutes
      with reversing the order *)
From Coq Require Import List Bool Sorted.
From Verif Require Import Base OrdFacts Pos MBound MRaw MNormalize MInterval MTine MBTree MTineTree MSelection
  Spec Spec_Sel Spec_Key Spec_Mirror PRaw PBTree PTree.
Import ListNotations.
Local Arguments cmp : simpl never.

Section PMirror.
  Context {T U : Type} {OT : Ord T} {OU : Ord U} (f : T -> U) (H : reverses f).
  Notation mb := (bound_key f).
  Notation mr := (raw_mirror f).
  Notation mt := (tine_mirror f).
  Notation ms := (tree_mirror f).
  Implicit Types (a b : Bound T) (i j : RawInterval T) (t u : Tine T) (s L R C : list (Tine T)).

  Lemma m_cmp x y : cmp (f x) (f y) = cmp y x.
  Proof. apply H. Qed.

  (** Compare each pair of values once. *)
  Ltac cases :=
    unfold ltb, leb, gtb, geb, eqb; rewrite ?m_cmp;
    repeat match goal with
    | |- context [cmp ?x ?y] =>
        let E := fresh "E" in destruct (cmp x y) eqn:E;
        [apply cmp_eq in E; subst; rewrite ?cmp_refl
        |try rewrite (proj2 (cmp_gt_lt y x) E)
        |try rewrite (proj1 (cmp_gt_lt x y) E)]
    end; try reflexivity.

  (** ** Bounds *)
  Lemma m_least_union a b : least_union (mb a) (mb b) = mb (greatest_union a b).
  Proof. destruct a, b; cbn; cases. Qed.
  Lemma m_greatest_union a b : greatest_union (mb a) (mb b) = mb (least_union a b).
  Proof. destruct a, b; cbn; cases. Qed.
  Lemma m_least_intersect a b : least_intersect (mb a) (mb b) = mb (greatest_intersect a b).
  Proof. destruct a, b; cbn; cases. Qed.
  Lemma m_greatest_intersect a b : greatest_intersect (mb a) (mb b) = mb (least_intersect a b).
  Proof. destruct a, b; cbn; cases. Qed.
  Lemma m_adjacent a b : is_union_adjacent_to (mb a) (mb b) = is_union_adjacent_to b a.
  Proof. destruct a, b; cbn; cases. Qed.
  Lemma m_adjacent' a b : is_union_adjacent_to (mb a) (mb b) = is_union_adjacent_to a b.
  Proof. destruct a, b; cbn; cases. Qed.

  (** ** Raw intervals *)
  Lemma m_lower_bound i : raw_lower_bound (mr i) = option_map mb (raw_upper_bound i).
  Proof. now destruct i. Qed.
  Lemma m_upper_bound i : raw_upper_bound (mr i) = option_map mb (raw_lower_bound i).
  Proof. now destruct i. Qed.
  Lemma m_infimum i : raw_infimum (mr i) = option_map f (raw_supremum i).
  Proof. now destruct i. Qed.
  Lemma m_supremum i : raw_supremum (mr i) = option_map f (raw_infimum i).
  Proof. now destruct i. Qed.
  Lemma m_is_empty i : raw_is_empty (mr i) = raw_is_empty i.
  Proof. now destruct i. Qed.
  Lemma m_is_full i : raw_is_full (mr i) = raw_is_full i.
  Proof. now destruct i. Qed.
  Lemma m_contains i x : raw_contains (mr i) (f x) = raw_contains i x.
  Proof. destruct i; cbn; cases. Qed.
  Lemma m_complement i : raw_complement (mr i) = raws_mirror f (raw_complement i).
  Proof. now destruct i. Qed.
  Lemma m_closure i : raw_closure (mr i) = mr (raw_closure i).
  Proof. now destruct i. Qed.
  Lemma m_open x y : raw_open (f y) (f x) = mr (raw_open x y).
  Proof. unfold raw_open. cases. Qed.
  Lemma m_left_open x y : raw_left_open (f y) (f x) = mr (raw_right_open x y).
  Proof. unfold raw_left_open, raw_right_open. cases. Qed.
  Lemma m_right_open x y : raw_right_open (f y) (f x) = mr (raw_left_open x y).
  Proof. unfold raw_left_open, raw_right_open. cases. Qed.
  Lemma m_closed x y : raw_closed (f y) (f x) = mr (raw_closed x y).
  Proof. unfold raw_closed. cases. Qed.
  Lemma m_new a b : raw_new (mb b) (mb a) = mr (raw_new a b).
  Proof. destruct a, b; cbn; rewrite ?m_open, ?m_left_open, ?m_right_open, ?m_closed; reflexivity. Qed.
  Lemma m_is_adjacent_to i j : raw_is_adjacent_to (mr i) (mr j) = raw_is_adjacent_to i j.
  Proof.
    unfold raw_is_adjacent_to. rewrite !m_lower_bound, !m_upper_bound.
    destruct (raw_lower_bound i), (raw_upper_bound i), (raw_lower_bound j), (raw_upper_bound j); cbn; rewrite ?m_adjacent;
      rewrite ?orb_false_r; try reflexivity; try apply orb_comm.
  Qed.
  Lemma m_as_ref b : bound_as_ref (mb b) = option_map f (bound_as_ref b).
  Proof. now destruct b. Qed.
  Lemma m_opt_eqb (x y : option T) : opt_eqb (option_map f x) (option_map f y) = opt_eqb y x.
  Proof. destruct x, y; cbn; auto. cases. Qed.
  Lemma m_inclusive b : is_inclusive (mb b) = is_inclusive b.
  Proof. now destruct b. Qed.
  Lemma m_exclusive b : is_exclusive (mb b) = is_exclusive b.
  Proof. now destruct b. Qed.
  Lemma m_intersect i j : raw_intersect (mr i) (mr j) = mr (raw_intersect i j).
  Proof.
    unfold raw_intersect. rewrite !m_lower_bound, !m_upper_bound.
    destruct (raw_lower_bound i), (raw_upper_bound i), (raw_lower_bound j), (raw_upper_bound j); cbn; auto.
    rewrite m_greatest_intersect, m_least_intersect, !m_as_ref, m_opt_eqb, !m_inclusive, !m_exclusive, m_new.
    rewrite orb_comm, (andb_comm (is_inclusive _)), (andb_comm (is_exclusive _)). rewrite orb_comm.
    now destruct (_ && _).
  Qed.
  Lemma m_intersects i j : raw_intersects (mr i) (mr j) = raw_intersects i j.
  Proof. unfold raw_intersects. now rewrite m_intersect, m_is_empty. Qed.
  Lemma m_enclose i j : raw_enclose (mr i) (mr j) = mr (raw_enclose i j).
  Proof.
    unfold raw_enclose. rewrite !m_lower_bound, !m_upper_bound.
    destruct (raw_lower_bound i), (raw_upper_bound i), (raw_lower_bound j), (raw_upper_bound j); cbn;
      rewrite ?m_least_union, ?m_greatest_union, ?m_new; reflexivity.
  Qed.
  Lemma m_union i j : raw_union (mr i) (mr j) = map mr (raw_union i j).
  Proof.
    unfold raw_union. rewrite !m_is_empty, m_intersects, m_is_adjacent_to, m_enclose.
    destruct (raw_is_empty i), (raw_is_empty j); auto. now destruct (_ || _).
  Qed.
  Lemma m_minus i j : raw_minus (mr i) (mr j) = raws_mirror f (raw_minus i j).
  Proof.
    unfold raw_minus. rewrite m_complement. unfold raws_mirror. rewrite map_rev.
    destruct (raw_complement j) as [|x [|y [|z l]]] eqn:E; [reflexivity| | |now destruct j]; cbn; rewrite !m_intersect, !m_is_empty.
    - now destruct (raw_is_empty _).
    - destruct (raw_is_empty (raw_intersect i x)), (raw_is_empty (raw_intersect i y)); reflexivity.
  Qed.
  Lemma m_intersect_all l : raw_intersect_all (map mr l) = mr (raw_intersect_all l).
  Proof.
    unfold raw_intersect_all. change (@Full U) with (mr Full) at 1. generalize (@Full T).
    induction l as [|i l IH]; intros r; cbn; auto. now rewrite m_intersect, IH.
  Qed.
  Lemma m_enclose_all l : raw_enclose_all (map mr l) = mr (raw_enclose_all l).
  Proof.
    unfold raw_enclose_all. change (@Full U) with (mr Full) at 1. generalize (@Full T).
    induction l as [|i l IH]; intros r; cbn; auto. now rewrite m_enclose, IH.
  Qed.
  Lemma m_union_all_step i l : raw_union_all_step (map mr l) (mr i) = map mr (raw_union_all_step l i).
  Proof.
    induction l as [|j l IH]; cbn; auto. rewrite m_intersects, m_is_adjacent_to. destruct (_ || _); cbn; now rewrite ?m_enclose, ?IH.
  Qed.
  Lemma m_union_all l : raw_union_all (map mr l) = map mr (raw_union_all l).
  Proof.
    unfold raw_union_all.
    assert (E : filter (fun k => negb (raw_is_empty k)) (map mr l) = map mr (filter (fun k => negb (raw_is_empty k)) l)).
    { induction l as [|i l IH]; cbn; auto. rewrite m_is_empty. destruct (negb _); cbn; now rewrite IH. }
    rewrite E. destruct (filter _ l) as [|i r]; auto. cbn. change [mr i] with (map mr [i]). generalize [i]. clear E.
    induction r as [|j r IH]; intros p; cbn; auto. rewrite m_is_full, m_union_all_step.
    destruct (raw_is_full j); [apply (IH [Full])|apply IH].
  Qed.
  Lemma m_wf i : raw_wf i -> raw_wf (mr i).
  Proof. destruct i; cbn; unfold lt, le; rewrite ?m_cmp; auto. Qed.

  (** ** Tines *)
  Definition mp (p : pos T) : pos U :=
    match p with NInf => PInf | Lo x => Hi (f x) | At x => At (f x) | Hi x => Lo (f x) | PInf => NInf end.
  Lemma m_pos p q : cmp (mp p) (mp q) = cmp q p.
  Proof. change (pos_cmp (mp p) (mp q) = pos_cmp q p). destruct p, q; cbn; rewrite ?m_cmp; reflexivity. Qed.
  Lemma m_pos_lt p q : lt p q -> lt (mp q) (mp p).
  Proof. unfold lt. now rewrite m_pos. Qed.
  Lemma m_okt t : okt (mt t) = okt t.
  Proof. now destruct t as [[]|[]|[]]. Qed.
  Lemma m_loc t : okt t = true -> loc (mt t) = mp (loc t).
  Proof. now destruct t as [[]|[]|[]]. Qed.
  Lemma m_is_lower t : is_lower_bound (mt t) = is_upper_bound t.
  Proof. now destruct t as [[]|[]|[]]. Qed.
  Lemma m_is_upper t : is_upper_bound (mt t) = is_lower_bound t.
  Proof. now destruct t as [[]|[]|[]]. Qed.
  Lemma m_is_point_include t : is_point_include (mt t) = is_point_include t.
  Proof. now destruct t as [[]|[]|[]]. Qed.
  Lemma m_is_point_exclude t : is_point_exclude (mt t) = is_point_exclude t.
  Proof. now destruct t as [[]|[]|[]]. Qed.
  Lemma m_invert t : tine_invert (mt t) = res_key mt (tine_invert t).
  Proof. now destruct t as [[]|[]|[]]. Qed.
  Lemma m_as_upper t : as_upper (mt t) = res_key mt (as_lower t).
  Proof. unfold as_upper, as_lower. rewrite m_is_upper, m_invert. now destruct (is_lower_bound t). Qed.
  Lemma m_as_lower t : as_lower (mt t) = res_key mt (as_upper t).
  Proof. unfold as_upper, as_lower. rewrite m_is_lower, m_invert. now destruct (is_upper_bound t). Qed.
  Lemma m_tine_ref t : tine_as_ref (mt t) = option_map f (tine_as_ref t).
  Proof. now destruct t as [[]|[]|[]]. Qed.
  Lemma opt_eqb_comm (x y : option T) : opt_eqb x y = opt_eqb y x.
  Proof. destruct x, y; cbn; auto. unfold eqb. rewrite (cmp_antisym t t0). now destruct (cmp t t0). Qed.
  Lemma m_same t u : opt_eqb (tine_as_ref (mt t)) (tine_as_ref (mt u)) = opt_eqb (tine_as_ref t) (tine_as_ref u).
  Proof. rewrite !m_tine_ref, m_opt_eqb. apply opt_eqb_comm. Qed.
  Lemma m_tine_union dbg t u : tine_union dbg (mt t) (mt u) = res_key (option_map mt) (tine_union dbg t u).
  Proof.
    unfold tine_union. rewrite m_same. destruct (debug_assert _ _); cbn; auto.
    destruct t as [[]|[]|[]], u as [[]|[]|[]]; reflexivity.
  Qed.
  Lemma m_tine_minus dbg t u : tine_minus dbg (mt t) (mt u) = res_key (option_map mt) (tine_minus dbg t u).
  Proof.
    unfold tine_minus. rewrite m_same. destruct (debug_assert _ _); cbn; auto.
    destruct t as [[]|[]|[]], u as [[]|[]|[]]; reflexivity.
  Qed.
  Lemma m_tine_intersect dbg t u : tine_intersect dbg (mt t) (mt u) = res_key (option_map mt) (tine_intersect dbg t u).
  Proof.
    unfold tine_intersect. rewrite m_same. destruct (debug_assert _ _); cbn; auto.
    destruct t as [[]|[]|[]], u as [[]|[]|[]]; reflexivity.
  Qed.
  Lemma m_tines i : tine_from_raw_interval (mr i) = rev (map mt (tine_from_raw_interval i)).
  Proof. now destruct i. Qed.

  (** ** Ascending sets of tines *)
  Lemma m_app L R : ms (L ++ R) = ms R ++ ms L.
  Proof. unfold tree_mirror. now rewrite map_app, rev_app_distr. Qed.
  Lemma m_opt (o : option (Tine T)) : ms (opt o) = opt (option_map mt o).
  Proof. now destruct o. Qed.
  Lemma m_cons t s : ms (t :: s) = ms s ++ [mt t].
  Proof. reflexivity. Qed.
  Lemma m_last s : btree_last (ms s) = option_map mt (btree_first s).
  Proof. destruct s as [|t s]; auto. rewrite m_cons. apply last_app_one. Qed.
  Lemma m_first s : btree_first (ms s) = option_map mt (btree_last s).
  Proof. destruct (snoc_cases s) as [->|(s' & t & ->)]; auto. now rewrite m_app, last_app_one. Qed.
  Lemma m_Forall (P : Tine U -> Prop) s : Forall (fun t => P (mt t)) s -> Forall P (ms s).
  Proof. intros K. apply Forall_rev. now apply Forall_map. Qed.
  Lemma m_bl q s : bl q s -> ab (mp q) (ms s).
  Proof. intros K. apply m_Forall. eapply Forall_impl; [|exact K]. intros t [K1 K2]. rewrite m_okt, m_loc by auto. split; auto. now apply m_pos_lt. Qed.
  Lemma m_ab q s : ab q s -> bl (mp q) (ms s).
  Proof. intros K. apply m_Forall. eapply Forall_impl; [|exact K]. intros t [K1 K2]. rewrite m_okt, m_loc by auto. split; auto. now apply m_pos_lt. Qed.
  Lemma m_at q (o : option (Tine T)) : at_loc q o -> at_loc (mp q) (option_map mt o).
  Proof. destruct o as [t|]; cbn; auto. intros [K <-]. now rewrite m_okt, m_loc. Qed.
End PMirror.

Section Ascending.
  Context {T : Type} {O : Ord T}.
  Implicit Types (t u : Tine T) (s L R C : list (Tine T)) (q : pos T).

  Definition asc s : Prop := srt s /\ Forall (fun t => okt t = true) s.

  Lemma asc_nil : asc [].
  Proof. repeat constructor. Qed.
  Lemma asc_app L R : asc (L ++ R) <-> asc L /\ asc R /\ Forall (fun t => Forall (fun u => lt (loc t) (loc u)) R) L.
  Proof. unfold asc. rewrite srt_app, Forall_app. tauto. Qed.
  Lemma asc_join q L R : asc L -> asc R -> bl q L -> ab q R -> asc (L ++ R).
  Proof. intros [S1 K1] [S2 K2] B A. split; [now apply (srt_bl q)|now apply Forall_app]. Qed.
  Lemma asc_mid q L o R : asc L -> asc R -> bl q L -> ab q R -> at_loc q o -> asc (L ++ opt o ++ R).
  Proof.
    intros A1 A2 B A E. destruct o as [t|]; cbn; [|now apply (asc_join q)]. destruct E as [K <-].
    apply asc_app. split; auto. split.
    - destruct A2 as [S2 K2]. split; constructor; auto. eapply Forall_impl; [|exact A]. now intros u [_ ?].
    - eapply Forall_impl; [|exact B]. intros u [_ Hu]. constructor; auto. eapply Forall_impl; [|exact A].
      intros w [_ Hw]. eapply plt_trans; eauto.
  Qed.
  Lemma asc_split q s : asc s -> exists L o R, s = L ++ opt o ++ R /\ bl q L /\ at_loc q o /\ ab q R.
  Proof.
    intros [S K]. induction s as [|t s IH].
    - exists [], None, []. repeat constructor.
    - inversion S as [|? ? S1 S2]; inversion K as [|? ? K1 K2]; subst. destruct (cmp (loc t) q) eqn:E.
      + apply cmp_eq in E. subst q. exists [], (Some t), s. cbn. repeat split; auto; [constructor|].
        rewrite Forall_forall in S2, K2. apply Forall_forall. auto.
      + destruct (IH S1 K2) as (L & o & R & -> & B & A & A'). exists (t :: L), o, R. repeat split; auto. constructor; auto.
      + apply cmp_gt_lt in E. exists [], None, (t :: s). cbn. repeat split; auto; [constructor|]. constructor; auto.
        rewrite Forall_forall in S2, K2. apply Forall_forall. intros u Hu. split; auto. eapply plt_trans; [exact E|]. auto.
  Qed.
  Lemma at_bl q r (o : option (Tine T)) : at_loc q o -> lt q r -> bl r (opt o).
  Proof. destruct o as [t|]; cbn; intros E L; [|constructor]. destruct E as [K <-]. repeat constructor; auto. Qed.
  Lemma at_ab q r (o : option (Tine T)) : at_loc q o -> lt r q -> ab r (opt o).
  Proof. destruct o as [t|]; cbn; intros E L; [|constructor]. destruct E as [K <-]. repeat constructor; auto. Qed.

  Lemma insert_eq t L o R : okt t = true -> bl (loc t) L -> at_loc (loc t) o -> ab (loc t) R ->
    btree_insert t (L ++ opt o ++ R) = L ++ match o with Some u => u | None => t end :: R.
  Proof.
    intros K B A A'. destruct o as [u|]; cbn; [|now apply insert_split]. destruct A as [Ku Eu].
    induction L as [|w L IH]; cbn.
    - rewrite tine_cmp_loc, Eu, cmp_refl by auto. reflexivity.
    - inversion B as [|? ? [Kw Bw] B']; subst. rewrite tine_cmp_loc by auto.
      rewrite (proj2 (cmp_gt_lt (loc t) (loc w)) Bw). now rewrite IH.
  Qed.
  Lemma asc_insert t s : okt t = true -> asc s -> asc (btree_insert t s).
  Proof.
    intros K A. destruct (asc_split (loc t) s A) as (L & o & R & -> & B & E & A'). rewrite insert_eq; auto.
    apply asc_app in A as (AL & A & _). apply asc_app in A as (_ & AR & _).
    change (asc (L ++ opt (Some match o with Some u => u | None => t end) ++ R)). apply (asc_mid (loc t)); auto.
    destruct o; cbn in *; auto.
  Qed.
  Lemma insert_comm t u s : okt t = true -> okt u = true -> loc t <> loc u -> asc s ->
    btree_insert t (btree_insert u s) = btree_insert u (btree_insert t s).
  Proof.
    assert (W : forall t u s, okt t = true -> okt u = true -> lt (loc t) (loc u) -> asc s ->
      btree_insert t (btree_insert u s) = btree_insert u (btree_insert t s)).
    { clear. intros t u s Kt Ku D A. destruct (asc_split (loc t) s A) as (L & o & X & -> & B & E & A').
      apply asc_app in A as (AL & A & _). apply asc_app in A as (_ & AX & _).
      destruct (asc_split (loc u) X AX) as (C & o' & R & -> & BC & E' & A'').
      assert (BL : bl (loc u) L) by (eapply bl_weaken; eauto).
      apply ab_app in A' as [AC AR]. apply ab_app in AR as [AO AR].
      rewrite (insert_eq t L o); auto. 2: { apply ab_app; split; auto. apply ab_app; auto. }
      replace (L ++ opt o ++ C ++ opt o' ++ R) with ((L ++ opt o ++ C) ++ opt o' ++ R) by (now rewrite <- !app_assoc).
      rewrite (insert_eq u (L ++ opt o ++ C)); auto.
      2: { apply bl_app; split; auto. apply bl_app; split; auto. now apply (at_bl (loc t)). }
      rewrite <- !app_assoc. rewrite (insert_eq t L o (C ++ _)); auto.
      2: { apply ab_app; split; auto. constructor; auto. destruct o' as [w|]; [destruct E' as [K ->]|]; auto. }
      set (z := match o with Some _ => _ | None => _ end).
      change (L ++ z :: C ++ opt o' ++ R) with (L ++ [z] ++ C ++ opt o' ++ R).
      replace (L ++ [z] ++ C ++ opt o' ++ R) with ((L ++ [z] ++ C) ++ opt o' ++ R) by (now rewrite <- !app_assoc).
      rewrite insert_eq; auto; [now rewrite <- !app_assoc|].
      apply bl_app; split; auto. apply bl_app; split; auto. subst z. destruct o as [w|]; cbn in *; repeat constructor; auto; try tauto.
      destruct E as [_ ->]. exact D. }
    intros Kt Ku N A. destruct (cmp_spec (loc t) (loc u)) as [D|[D|D]]; [now apply W|contradiction|symmetry; now apply W].
  Qed.
  Lemma ext_proper_eq l u L o C o' R : okt l = true -> okt u = true -> lt (loc l) (loc u) ->
    bl (loc l) L -> at_loc (loc l) o -> ab (loc l) C -> bl (loc u) C -> at_loc (loc u) o' -> ab (loc u) R ->
    exterior_split_for_proper_interval l u (L ++ opt o ++ C ++ opt o' ++ R) = ((btree_last L, o, o', btree_first R), L ++ R).
  Proof.
    intros Kl Ku D B E AC BC E' AR. assert (AR' : ab (loc l) R) by (eapply ab_weaken; eauto).
    unfold exterior_split_for_proper_interval. rewrite take_split; auto.
    2: { apply ab_app; split; auto. apply ab_app; split; auto. now apply (at_ab (loc u)). }
    rewrite app_assoc, take_split; auto. 2: { apply bl_app; split; auto. eapply bl_weaken; eauto. }
    rewrite <- app_assoc, split_off_split, split_off_split, (append_split (loc l)); auto. apply ab_app; auto.
  Qed.
  Lemma int_proper_eq dbg l u L o C o' R : okt l = true -> okt u = true -> lt (loc l) (loc u) ->
    bl (loc l) L -> at_loc (loc l) o -> ab (loc l) C -> bl (loc u) C -> at_loc (loc u) o' -> ab (loc u) R ->
    interior_split_for_proper_interval dbg l u (L ++ opt o ++ C ++ opt o' ++ R) =
      Ok ((btree_last L, btree_first C, o, o', btree_last C, btree_first R), C).
  Proof.
    intros Kl Ku D B E AC BC E' AR. assert (AR' : ab (loc l) R) by (eapply ab_weaken; eauto).
    unfold interior_split_for_proper_interval. rewrite tine_cmp_loc by auto. rewrite D. unfold debug_assert. rewrite andb_false_r. cbn [bind].
    rewrite take_split; auto.
    2: { apply ab_app; split; auto. apply ab_app; split; auto. now apply (at_ab (loc u)). }
    rewrite app_assoc, take_split; auto. 2: { apply bl_app; split; auto. eapply bl_weaken; eauto. }
    rewrite <- app_assoc, split_off_split, split_off_split; auto; [|apply ab_app; auto].
    assert (X : Bool.eqb (match btree_first C with Some _ => true | None => false end) (match btree_last C with Some _ => true | None => false end) = true).
    { destruct (snoc_cases C) as [->|(C' & t & ->)]; auto. rewrite last_app_one. now destruct C'. }
    rewrite X, andb_false_r. reflexivity.
  Qed.

  (** Merging keeps the place. *)
  Definition merged q (r : res (option (Tine T))) : Prop := match r with Ok o => at_loc q o | Panic => True end.
  Ltac merge a b r := intros Ka Kb E; unfold merged; destruct r as [[c|]|] eqn:X; cbn; auto;
    revert X; unfold tine_union, tine_minus, tine_intersect; destruct (debug_assert _ _); cbn; [|discriminate];
    revert Ka Kb E; destruct a as [[]|[]|[]], b as [[]|[]|[]]; cbn; intros Ka Kb E X; try discriminate;
    injection X as <-; cbn; auto.
  Lemma union_at dbg a b : okt a = true -> okt b = true -> loc a = loc b -> merged (loc b) (tine_union dbg a b).
  Proof. merge a b (tine_union dbg a b). Qed.
  Lemma minus_at dbg a b : okt a = true -> okt b = true -> loc a = loc b -> merged (loc b) (tine_minus dbg a b).
  Proof. merge a b (tine_minus dbg a b). Qed.
  Lemma intersect_at dbg a b : okt a = true -> okt b = true -> loc a = loc b -> merged (loc b) (tine_intersect dbg a b).
  Proof. merge a b (tine_intersect dbg a b). Qed.
  Lemma invert_at t : okt t = true -> match tine_invert t with Ok u => okt u = true /\ loc u = loc t | Panic => True end.
  Proof. destruct t as [[]|[]|[]]; cbn; auto. Qed.
  Lemma as_upper_at t : okt t = true -> match as_upper t with Ok u => okt u = true /\ loc u = loc t | Panic => True end.
  Proof. intros K. unfold as_upper. destruct (is_upper_bound t); auto. now apply invert_at. Qed.
  Lemma as_lower_at t : okt t = true -> match as_lower t with Ok u => okt u = true /\ loc u = loc t | Panic => True end.
  Proof. intros K. unfold as_lower. destruct (is_lower_bound t); auto. now apply invert_at. Qed.
End Ascending.

Section PMirrorTree.
  Context {T U : Type} {OT : Ord T} {OU : Ord U} (f : T -> U) (H : reverses f).
  Notation mb := (bound_key f).
  Notation mr := (raw_mirror f).
  Notation mt := (tine_mirror f).
  Notation ms := (tree_mirror f).
  Notation mp := (mp f).
  Implicit Types (i j : RawInterval T) (t u : Tine T) (s L R C : list (Tine T)).

  Lemma m_insert t s : okt t = true -> asc s -> btree_insert (mt t) (ms s) = ms (btree_insert t s).
  Proof.
    intros K A. destruct (asc_split (loc t) s A) as (L & o & R & -> & B & E & A'). rewrite insert_eq; auto.
    rewrite !m_app, m_cons, m_opt, <- !app_assoc. pose proof (m_bl f H _ _ B). pose proof (m_ab f H _ _ A'). pose proof (m_at f _ _ E).
    rewrite <- m_loc in * by auto. rewrite insert_eq; auto; [|now rewrite m_okt].
    cbn. now destruct o.
  Qed.
  Lemma m_ext_point p s : okt p = true -> asc s ->
    exists (t0 t1 t2 : option (Tine T)) s', exterior_split_for_point_interval p s = ((t0, t1, t2), s') /\ asc s' /\ at_loc (loc p) t1 /\
      exterior_split_for_point_interval (mt p) (ms s) = ((option_map mt t2, option_map mt t1, option_map mt t0), ms s').
  Proof.
    intros K A. destruct (asc_split (loc p) s A) as (L & o & R & -> & B & E & A').
    pose proof (m_bl f H _ _ B) as B2. pose proof (m_ab f H _ _ A') as A2. pose proof (m_at f _ _ E) as E2.
    rewrite <- m_loc in B2, A2, E2 by auto.
    exists (btree_last L), o, (btree_first R), (L ++ R).
    apply asc_app in A as (AL & A & _). apply asc_app in A as (_ & AR & _).
    split; [|split; [now apply (asc_join (loc p))|split; auto]].
    - unfold exterior_split_for_point_interval. now rewrite take_split, split_off_split, (append_split (loc p)).
    - unfold exterior_split_for_point_interval. rewrite !m_app, m_opt, <- app_assoc.
      rewrite take_split, split_off_split, (append_split (loc (mt p))); rewrite ?m_okt; auto. now rewrite m_last, m_first.
  Qed.
  Lemma m_ext_proper l u s : okt l = true -> okt u = true -> lt (loc l) (loc u) -> asc s ->
    exists (t0 t1 t2 t3 : option (Tine T)) s', exterior_split_for_proper_interval l u s = ((t0, t1, t2, t3), s') /\ asc s' /\
      at_loc (loc l) t1 /\ at_loc (loc u) t2 /\
      exterior_split_for_proper_interval (mt u) (mt l) (ms s) =
        ((option_map mt t3, option_map mt t2, option_map mt t1, option_map mt t0), ms s').
  Proof.
    intros Kl Ku D A. destruct (asc_split (loc l) s A) as (L & o & X & -> & B & E & A').
    apply asc_app in A as (AL & A & _). apply asc_app in A as (_ & AX & _).
    destruct (asc_split (loc u) X AX) as (C & o' & R & -> & BC & E' & A'').
    apply asc_app in AX as (_ & AX & _). apply asc_app in AX as (_ & AR & _).
    apply ab_app in A' as [AC A']. apply ab_app in A' as [AO AR'].
    assert (BL : bl (loc u) L) by (eapply bl_weaken; eauto).
    exists (btree_last L), o, o', (btree_first R), (L ++ R).
    split; [now apply ext_proper_eq|]. split; [now apply (asc_join (loc l))|]. split; auto. split; auto.
    rewrite !m_app, !m_opt, <- !app_assoc.
    rewrite ext_proper_eq; rewrite ?m_okt; auto; try (rewrite !m_loc by auto; auto using m_bl, m_ab, m_at, m_pos_lt).
    { now rewrite m_last, m_first. }
    all: try solve [now apply m_at|now apply m_ab|now apply m_bl|now apply m_pos_lt].
  Qed.

  Lemma m_int_proper dbg l u s : okt l = true -> okt u = true -> lt (loc l) (loc u) -> asc s ->
    exists (t0 t1 t2 t3 t4 t5 : option (Tine T)) s',
      interior_split_for_proper_interval dbg l u s = Ok ((t0, t1, t2, t3, t4, t5), s') /\ asc s' /\
      at_loc (loc l) t2 /\ at_loc (loc u) t3 /\
      interior_split_for_proper_interval dbg (mt u) (mt l) (ms s) =
        Ok ((option_map mt t5, option_map mt t4, option_map mt t3, option_map mt t2, option_map mt t1, option_map mt t0), ms s').
  Proof.
    intros Kl Ku D A. destruct (asc_split (loc l) s A) as (L & o & X & -> & B & E & A').
    apply asc_app in A as (AL & A & _). apply asc_app in A as (_ & AX & _).
    destruct (asc_split (loc u) X AX) as (C & o' & R & -> & BC & E' & A'').
    apply asc_app in AX as (AC' & AX & _).
    apply ab_app in A' as [AC A']. apply ab_app in A' as [AO AR'].
    exists (btree_last L), (btree_first C), o, o', (btree_last C), (btree_first R), C.
    split; [now apply int_proper_eq|]. split; auto. split; auto. split; auto.
    rewrite !m_app, !m_opt, <- !app_assoc.
    rewrite int_proper_eq; rewrite ?m_okt; auto; try (rewrite !m_loc by auto).
    { now rewrite !m_last, !m_first. }
    all: try solve [now apply m_at|now apply m_ab|now apply m_bl|now apply m_pos_lt].
  Qed.

  Lemma m_some_lower (o : option (Tine T)) : is_some_and is_lower_bound (option_map mt o) = is_some_and is_upper_bound o.
  Proof. destruct o; cbn; auto. apply m_is_lower. Qed.
  Lemma m_some_upper (o : option (Tine T)) : is_some_and is_upper_bound (option_map mt o) = is_some_and is_lower_bound o.
  Proof. destruct o; cbn; auto. apply m_is_upper. Qed.
  Lemma m_all_lower (o : option (Tine T)) : map_or_true is_lower_bound (option_map mt o) = map_or_true is_upper_bound o.
  Proof. destruct o; cbn; auto. apply m_is_lower. Qed.
  Lemma m_all_upper (o : option (Tine T)) : map_or_true is_upper_bound (option_map mt o) = map_or_true is_lower_bound o.
  Proof. destruct o; cbn; auto. apply m_is_upper. Qed.

  (** The tine found at a place merged with the new one. *)
  Definition merge_with (op : Tine T -> Tine T -> res (option (Tine T))) (o : option (Tine T)) t : res (option (Tine T)) :=
    match o with Some t' => op t' t | None => Ok (Some t) end.

  Ltac asserts dbg := unfold debug_assert; destruct dbg; cbn [andb negb bind].
  Lemma m_union_point dbg p s : okt p = true -> asc s ->
    union_point_interval dbg (mt p) (ms s) = res_key ms (union_point_interval dbg p s) /\
    (forall s', union_point_interval dbg p s = Ok s' -> asc s').
  Proof.
    intros K A. destruct (m_ext_point p s K A) as (t0 & t1 & t2 & s1 & E & A1 & E1 & E').
    unfold union_point_interval. rewrite E, E'. clear E E' A.
    assert (M : match option_map mt t1 with Some pt => tine_union dbg pt (mt p) | None => Ok (Some (mt p)) end =
      res_key (option_map mt) (match t1 with Some pt => tine_union dbg pt p | None => Ok (Some p) end)).
    { destruct t1; cbn; auto. now apply m_tine_union. }
    rewrite M. clear M.
    assert (M : merged (loc p) (match t1 with Some pt => tine_union dbg pt p | None => Ok (Some p) end)).
    { destruct t1; cbn; auto. destruct E1. now apply union_at. }
    destruct (match t1 with Some pt => tine_union dbg pt p | None => Ok (Some p) end) as [[c|]|]; cbn; try (split; [reflexivity|]; intros s' X; try discriminate X; injection X as <-; assumption).
    destruct M as [Kc Ec]. rewrite m_some_lower, m_some_upper, m_is_lower, m_is_upper, m_insert by auto.
    pose proof (asc_insert c s1 Kc A1).
    destruct (is_some_and is_lower_bound t0), (is_some_and is_upper_bound t2), (is_lower_bound c), (is_upper_bound c); asserts dbg;
      (split; [reflexivity|]; intros s' X; try discriminate X; injection X as <-; assumption).
  Qed.

  Lemma m_merge (op : bool -> Tine T -> Tine T -> res (option (Tine T))) (op' : bool -> Tine U -> Tine U -> res (option (Tine U))) dbg o t :
    (forall a b, op' dbg (mt a) (mt b) = res_key (option_map mt) (op dbg a b)) ->
    match option_map mt o with Some pt => op' dbg pt (mt t) | None => Ok (Some (mt t)) end =
    res_key (option_map mt) (match o with Some pt => op dbg pt t | None => Ok (Some t) end).
  Proof. intros M. destruct o; cbn; auto. Qed.
  Lemma merge_at (op : bool -> Tine T -> Tine T -> res (option (Tine T))) dbg o t :
    (forall a b, okt a = true -> okt b = true -> loc a = loc b -> merged (loc b) (op dbg a b)) ->
    okt t = true -> at_loc (loc t) o ->
    merged (loc t) (match o with Some pt => op dbg pt t | None => Ok (Some t) end).
  Proof. intros M K E. destruct o; cbn; auto. destruct E. now apply M. Qed.

  Ltac done := split; [reflexivity|let s' := fresh "s" in let X := fresh "X" in intros s' X; try discriminate X; injection X as <-; assumption].
  Lemma m_minus_point dbg p s : okt p = true -> asc s ->
    minus_point_interval dbg (mt p) (ms s) = res_key ms (minus_point_interval dbg p s) /\
    (forall s', minus_point_interval dbg p s = Ok s' -> asc s').
  Proof.
    intros K A. destruct (m_ext_point p s K A) as (t0 & t1 & t2 & s1 & E & A1 & E1 & E').
    unfold minus_point_interval. rewrite E, E'. clear E E' A.
    rewrite (m_merge tine_minus tine_minus) by (intros; now apply m_tine_minus).
    pose proof (merge_at tine_minus dbg t1 p (minus_at dbg) K E1) as M.
    destruct (match t1 with Some pt => tine_minus dbg pt p | None => Ok (Some p) end) as [[c|]|]; cbn; try done.
    destruct M as [Kc Ec]. rewrite m_some_lower, m_some_upper, m_is_lower, m_is_upper, m_insert, m_invert by auto.
    pose proof (asc_insert c s1 Kc A1) as Ac. pose proof (invert_at c Kc) as Ai.
    destruct (tine_invert c) as [d|]; cbn.
    - destruct Ai as [Kd Ed]. rewrite m_insert by auto. pose proof (asc_insert d s1 Kd A1) as Ad.
      destruct (is_some_and is_lower_bound t0), (is_some_and is_upper_bound t2), (is_lower_bound c), (is_upper_bound c); asserts dbg; done.
    - destruct (is_some_and is_lower_bound t0), (is_some_and is_upper_bound t2), (is_lower_bound c), (is_upper_bound c); asserts dbg; done.
  Qed.
  Lemma m_union_proper dbg l u s : okt l = true -> okt u = true -> lt (loc l) (loc u) -> asc s ->
    union_proper_interval dbg (mt u) (mt l) (ms s) = res_key ms (union_proper_interval dbg l u s) /\
    (forall s', union_proper_interval dbg l u s = Ok s' -> asc s').
  Proof.
    intros Kl Ku D A. destruct (m_ext_proper l u s Kl Ku D A) as (t0 & t1 & t2 & t3 & s1 & E & A1 & E1 & E2 & E').
    unfold union_proper_interval. rewrite E, E'. clear E E' A.
    rewrite !(m_merge tine_union tine_union) by (intros; now apply m_tine_union).
    pose proof (merge_at tine_union dbg t1 l (union_at dbg) Kl E1) as Ml.
    pose proof (merge_at tine_union dbg t2 u (union_at dbg) Ku E2) as Mu.
    rewrite m_some_lower, m_some_upper.
    destruct (match t1 with Some pt => tine_union dbg pt l | None => Ok (Some l) end) as [ml|],
      (match t2 with Some pt => tine_union dbg pt u | None => Ok (Some u) end) as [mu|]; cbn [res_key bind]; try done.
    rewrite !m_all_lower, !m_all_upper. cbn [merged] in *.
    destruct ml as [c|], mu as [d|]; cbn [option_map map_or_true] in *.
    - destruct Ml as [Kc Ec], Mu as [Kd Ed].
      pose proof (asc_insert c s1 Kc A1) as Ac. pose proof (asc_insert d s1 Kd A1) as Ad. pose proof (asc_insert d _ Kd Ac) as Acd.
      assert (N : loc c <> loc d) by (rewrite Ec, Ed; intros X; rewrite X in D; now apply lt_irrefl in D).
      rewrite !m_is_lower, !m_is_upper.
      destruct (is_some_and is_lower_bound t0), (is_some_and is_upper_bound t3), (is_lower_bound c), (is_upper_bound c),
        (is_lower_bound d), (is_upper_bound d); asserts dbg; cbn [res_key];
        rewrite ?m_insert by auto; try (rewrite (insert_comm c d) by auto); done.
    - destruct Ml as [Kc Ec]. pose proof (asc_insert c s1 Kc A1) as Ac. rewrite ?m_is_lower, ?m_is_upper, ?m_is_point_exclude.
      destruct (is_some_and is_lower_bound t0), (is_some_and is_upper_bound t3), (is_lower_bound c), (is_upper_bound c), (is_point_exclude c);
        asserts dbg; cbn [res_key]; rewrite ?m_insert by auto; done.
    - destruct Mu as [Kd Ed]. pose proof (asc_insert d s1 Kd A1) as Ad. rewrite ?m_is_lower, ?m_is_upper, ?m_is_point_exclude.
      destruct (is_some_and is_lower_bound t0), (is_some_and is_upper_bound t3), (is_lower_bound d), (is_upper_bound d), (is_point_exclude d);
        asserts dbg; cbn [res_key]; rewrite ?m_insert by auto; done.
    - destruct (is_some_and is_lower_bound t0), (is_some_and is_upper_bound t3); asserts dbg; cbn [res_key]; done.
  Qed.
  Lemma m_include_point t s : asc s ->
    (match mt t with TPoint (Include p) => btree_insert (TPoint (Include p)) (ms s) | _ => ms s end) =
    ms (match t with TPoint (Include p) => btree_insert (TPoint (Include p)) s | _ => s end).
  Proof.
    intros A. destruct t as [[]|[]|[]]; cbn [tine_mirror bound_key]; auto.
    change (TPoint (Include (f x))) with (mt (TPoint (Include x))). now apply m_insert.
  Qed.
  Lemma asc_include_point t s : asc s ->
    asc (match t with TPoint (Include p) => btree_insert (TPoint (Include p)) s | _ => s end).
  Proof. intros A. destruct t as [[]|[]|[]]; auto. now apply asc_insert. Qed.
  Lemma m_minus_proper dbg l u s : okt l = true -> okt u = true -> lt (loc l) (loc u) -> asc s ->
    minus_proper_interval dbg (mt u) (mt l) (ms s) = res_key ms (minus_proper_interval dbg l u s) /\
    (forall s', minus_proper_interval dbg l u s = Ok s' -> asc s').
  Proof.
    intros Kl Ku D A. destruct (m_ext_proper l u s Kl Ku D A) as (t0 & t1 & t2 & t3 & s1 & E & A1 & E1 & E2 & E').
    unfold minus_proper_interval. rewrite E, E'. clear E E' A.
    rewrite !(m_merge tine_minus tine_minus) by (intros; now apply m_tine_minus).
    pose proof (merge_at tine_minus dbg t1 l (minus_at dbg) Kl E1) as Ml.
    pose proof (merge_at tine_minus dbg t2 u (minus_at dbg) Ku E2) as Mu.
    rewrite m_some_lower, m_some_upper.
    destruct (match t1 with Some pt => tine_minus dbg pt l | None => Ok (Some l) end) as [ml|],
      (match t2 with Some pt => tine_minus dbg pt u | None => Ok (Some u) end) as [mu|]; cbn [res_key bind]; try done.
    cbn [merged] in *.
    destruct ml as [c|], mu as [d|]; cbn [option_map] in *.
    - destruct Ml as [Kc Ec], Mu as [Kd Ed]. rewrite !m_as_upper, !m_as_lower, !m_is_point_include.
      pose proof (asc_insert c s1 Kc A1) as Ac. pose proof (asc_insert d s1 Kd A1) as Ad. pose proof (asc_insert d _ Kd Ac) as Acd.
      assert (N : forall c' d' : Tine T, loc c' = loc c -> loc d' = loc d -> loc c' <> loc d').
      { intros c' d' X Y Z. rewrite X, Y, Ec, Ed in Z. rewrite Z in D. now apply lt_irrefl in D. }
      pose proof (as_upper_at c Kc) as Pc. pose proof (as_lower_at d Kd) as Pd.
      destruct (as_upper c) as [c'|], (as_lower d) as [d'|]; cbn [res_key bind] in *.
      + destruct Pc as [Kc' Ec'], Pd as [Kd' Ed'].
        pose proof (asc_insert c' s1 Kc' A1) as Ac'. pose proof (asc_insert d' s1 Kd' A1) as Ad'. pose proof (asc_insert d' _ Kd' Ac') as Acd'.
        destruct (is_some_and is_lower_bound t0), (is_some_and is_upper_bound t3); cbn [res_key].
        * rewrite !m_insert, (insert_comm c' d') by auto. done.
        * rewrite m_insert by auto. rewrite m_include_point by auto.
          pose proof (asc_include_point d _ Ac'). done.
        * rewrite m_insert by auto. rewrite m_include_point by auto.
          pose proof (asc_include_point c _ Ad'). done.
        * destruct (is_point_include c), (is_point_include d); cbn [res_key]; rewrite ?m_insert by auto; try (rewrite (insert_comm c d) by auto); done.
      + destruct Pc as [Kc' Ec']. pose proof (asc_insert c' s1 Kc' A1) as Ac'.
        destruct (is_some_and is_lower_bound t0), (is_some_and is_upper_bound t3); cbn [res_key].
        * done.
        * rewrite m_insert by auto. rewrite m_include_point by auto.
          pose proof (asc_include_point d _ Ac'). done.
        * done.
        * destruct (is_point_include c), (is_point_include d); cbn [res_key]; rewrite ?m_insert by auto; try (rewrite (insert_comm c d) by auto); done.
      + destruct Pd as [Kd' Ed']. pose proof (asc_insert d' s1 Kd' A1) as Ad'.
        destruct (is_some_and is_lower_bound t0), (is_some_and is_upper_bound t3); cbn [res_key].
        * done.
        * done.
        * rewrite m_insert by auto. rewrite m_include_point by auto.
          pose proof (asc_include_point c _ Ad'). done.
        * destruct (is_point_include c), (is_point_include d); cbn [res_key]; rewrite ?m_insert by auto; try (rewrite (insert_comm c d) by auto); done.
      + destruct (is_some_and is_lower_bound t0), (is_some_and is_upper_bound t3); cbn [res_key]; try done.
        destruct (is_point_include c), (is_point_include d); cbn [res_key]; rewrite ?m_insert by auto; try (rewrite (insert_comm c d) by auto); done.
    - destruct Ml as [Kc Ec]. rewrite !m_as_lower, !m_is_point_include. pose proof (asc_insert c s1 Kc A1) as Ac.
      pose proof (as_upper_at c Kc) as Pc. destruct (as_upper c) as [c'|]; cbn [res_key bind] in *.
      + destruct Pc as [Kc' Ec']. pose proof (asc_insert c' s1 Kc' A1) as Ac'.
        destruct (is_some_and is_lower_bound t0), (is_some_and is_upper_bound t3), (is_point_include c); cbn [res_key]; rewrite ?m_insert by auto; done.
      + destruct (is_some_and is_lower_bound t0), (is_some_and is_upper_bound t3), (is_point_include c); cbn [res_key]; rewrite ?m_insert by auto; done.
    - destruct Mu as [Kd Ed]. rewrite !m_as_upper, !m_is_point_include. pose proof (asc_insert d s1 Kd A1) as Ad.
      pose proof (as_lower_at d Kd) as Pd. destruct (as_lower d) as [d'|]; cbn [res_key bind] in *.
      + destruct Pd as [Kd' Ed']. pose proof (asc_insert d' s1 Kd' A1) as Ad'.
        destruct (is_some_and is_lower_bound t0), (is_some_and is_upper_bound t3), (is_point_include d); cbn [res_key]; rewrite ?m_insert by auto; done.
      + destruct (is_some_and is_lower_bound t0), (is_some_and is_upper_bound t3), (is_point_include d); cbn [res_key]; rewrite ?m_insert by auto; done.
    - destruct (is_some_and is_lower_bound t0), (is_some_and is_upper_bound t3); cbn [res_key]; done.
  Qed.
  Lemma m_intersect_proper dbg l u s : okt l = true -> okt u = true -> lt (loc l) (loc u) -> asc s ->
    intersect_proper_interval dbg (mt u) (mt l) (ms s) = res_key ms (intersect_proper_interval dbg l u s) /\
    (forall s', intersect_proper_interval dbg l u s = Ok s' -> asc s').
  Proof.
    intros Kl Ku D A. destruct (m_int_proper dbg l u s Kl Ku D A) as (t0 & t1 & t2 & t3 & t4 & t5 & s1 & E & A1 & E1 & E2 & E').
    unfold intersect_proper_interval. rewrite E, E'. clear E E' A. cbn [bind].
    rewrite !(m_merge tine_intersect tine_intersect) by (intros; now apply m_tine_intersect).
    pose proof (merge_at tine_intersect dbg t2 l (intersect_at dbg) Kl E1) as Ml.
    pose proof (merge_at tine_intersect dbg t3 u (intersect_at dbg) Ku E2) as Mu.
    rewrite !m_some_lower, !m_some_upper.
    destruct (match t2 with Some pt => tine_intersect dbg pt l | None => Ok (Some l) end) as [ml|],
      (match t3 with Some pt => tine_intersect dbg pt u | None => Ok (Some u) end) as [mu|]; cbn [res_key bind]; try done.
    rewrite !m_all_lower, !m_all_upper. cbn [merged] in *.
    destruct ml as [c|], mu as [d|]; cbn [option_map map_or_true] in *.
    - destruct Ml as [Kc Ec], Mu as [Kd Ed].
      pose proof (asc_insert c s1 Kc A1) as Ac. pose proof (asc_insert d s1 Kd A1) as Ad. pose proof (asc_insert d _ Kd Ac) as Acd.
      assert (N : loc c <> loc d) by (rewrite Ec, Ed; intros X; rewrite X in D; now apply lt_irrefl in D).
      destruct (is_some_and is_lower_bound t0), (is_some_and is_upper_bound t5), (is_some_and is_upper_bound t1), (is_some_and is_lower_bound t4),
        (is_lower_bound c), (is_upper_bound d); asserts dbg; cbn [res_key];
        rewrite ?m_insert by auto; try (rewrite (insert_comm c d) by auto); done.
    - destruct Ml as [Kc Ec]. pose proof (asc_insert c s1 Kc A1) as Ac.
      destruct (is_some_and is_lower_bound t0), (is_some_and is_upper_bound t5), (is_some_and is_upper_bound t1), (is_some_and is_lower_bound t4),
        (is_lower_bound c); asserts dbg; cbn [res_key]; rewrite ?m_insert by auto; done.
    - destruct Mu as [Kd Ed]. pose proof (asc_insert d s1 Kd A1) as Ad.
      destruct (is_some_and is_lower_bound t0), (is_some_and is_upper_bound t5), (is_some_and is_upper_bound t1), (is_some_and is_lower_bound t4),
        (is_upper_bound d); asserts dbg; cbn [res_key]; rewrite ?m_insert by auto; done.
    - destruct (is_some_and is_lower_bound t0), (is_some_and is_upper_bound t5), (is_some_and is_upper_bound t1), (is_some_and is_lower_bound t4);
        asserts dbg; cbn [res_key]; done.
  Qed.
End PMirrorTree.
