(** * Canonicity, and exactness of the in-place operations *)
From Coq Require Import List Bool ZArith Lia Sorted.
From Verif Require Import Base OrdFacts Pos MBound MRaw MTine MBTree MTineTree Spec PRaw PRaw2 PBTree PTree PTreeOps PTreeIsect.
Import ListNotations.

#[local] Arguments cmp : simpl never.

Section PTree2.
  Context {T : Type} {O : Ord T}.
  Implicit Types (t u : Tine T) (s L R C : list (Tine T)) (p q : pos T) (b c v : bool).

  Lemma mk_trivial q b : mk q b b b = None.
  Proof. destruct q, b; reflexivity. Qed.

  (** A tine changes something at its location or just after. *)
  Lemma tine_changes t : okt t = true ->
    atv t <> is_upper_bound t \/ (is_lower_bound t <> is_upper_bound t /\ (exists x, loc t = At x)) \/
    (loc t = PInf /\ is_upper_bound t = true).
  Proof.
    destruct t as [[x|x|]|[x|x|]|[x|x|]]; simpl; intros K; try discriminate K; unfold atv; simpl;
      first [left; intros H; discriminate H | right; left; split; [intros H; discriminate H|eexists; reflexivity] | right; right; auto].
  Qed.

  Lemma lt_At_Hi (x : T) : lt (At x) (Hi x).
  Proof. porder. Qed.
  Lemma Hi_before t (x : T) : okt t = true -> lt (At x) (loc t) -> lt (Hi x) (loc t).
  Proof. destruct t as [[y|y|]|[y|y|]|[y|y|]]; simpl; try discriminate; intros _; unfold loc; simpl; porder. Qed.

  (** Two well-formed trees that agree at every position are the same list. *)
  Lemma den_ext_gen s : forall b s' , srt s -> srt s' -> chain b s false = true -> chain b s' false = true ->
    (forall p, den b s p = den b s' p) -> s = s'.
  Proof.
    assert (Wrong : forall b t s s', srt (t :: s) -> chain b (t :: s) false = true -> chain b s' false = true ->
      (forall u, In u s' -> okt u = true /\ lt (loc t) (loc u)) ->
      (forall p, den b (t :: s) p = den b s' p) -> False).
    { intros b t s1 s' S1 H1 H2 Hab H. simpl in H1. rewrite !andb_true_iff in H1. destruct H1 as [[K B] H1].
      apply eqb_prop in B. subst b. inversion S1 as [|? ? S2 S3]; subst. rewrite Forall_forall in S3.
      assert (Oks := chain_ok _ _ _ H1). rewrite Forall_forall in Oks.
      destruct (tine_changes t K) as [C|[[C [x E]]|[E C]]].
      - specialize (H (loc t)). simpl in H. rewrite cmp_refl in H. rewrite den_low in H; auto. intros u Hu. now apply Hab.
      - specialize (H (Hi x)). simpl in H. rewrite E in H.
        assert (G : cmp (Hi x) (At x) = Gt) by (apply cmp_gt_lt; apply lt_At_Hi).
        rewrite G, !den_low in H; auto.
        + intros u Hu. destruct (Hab u Hu) as [Ku Lu]. rewrite E in Lu. now apply Hi_before.
        + intros u Hu. specialize (S3 u Hu). rewrite E in S3. apply Hi_before; auto.
      - rewrite C in H2. destruct s' as [|u s']; [discriminate|].
        destruct (Hab u (or_introl eq_refl)) as [_ G]. rewrite E in G. now apply (nothing_above_PInf _ G). }
    induction s as [|t s IH]; intros b s' S1 S2 H1 H2 H.
    - destruct s' as [|t' s']; auto. exfalso.
      apply (Wrong b t' s' []); auto. intros u [].
    - destruct s' as [|t' s'].
      { exfalso. apply (Wrong b t s []); auto. intros u []. }
      assert (Oks := chain_ok _ _ _ H1). assert (Oks' := chain_ok _ _ _ H2). rewrite Forall_forall in Oks, Oks'.
      inversion S1 as [|? ? SS SF]; subst. inversion S2 as [|? ? SS' SF']; subst. rewrite Forall_forall in SF, SF'.
      destruct (cmp (loc t) (loc t')) eqn:E.
      + apply cmp_eq in E.
        assert (K := Oks t (or_introl eq_refl)). assert (K' := Oks' t' (or_introl eq_refl)).
        simpl in H1, H2. rewrite !andb_true_iff in H1, H2. destruct H1 as [[_ B] H1], H2 as [[_ B'] H2].
        apply eqb_prop in B, B'. subst b.
        assert (Ev : atv t = atv t').
        { specialize (H (loc t)). simpl in H. rewrite E in H. now rewrite !cmp_refl in H. }
        assert (El : is_lower_bound t = is_lower_bound t').
        { destruct (tine_is_mk t K) as [_ A], (tine_is_mk t' K') as [_ A']. rewrite <- E in A'.
          destruct (loc t) as [|x|x|x|] eqn:Et; simpl in A, A'.
          - destruct A, A'. congruence.
          - contradiction.
          - specialize (H (Hi x)). simpl in H. rewrite <- E, Et in H.
            assert (G : cmp (Hi x) (At x) = Gt) by (apply cmp_gt_lt; apply lt_At_Hi).
            rewrite G, !den_low in H; auto.
            + intros u Hu. apply Hi_before; [apply Oks'; now right|]. rewrite E. now apply SF'.
            + intros u Hu. apply Hi_before; [apply Oks; now right|]. now apply SF.
          - contradiction.
          - destruct A, A'. congruence. }
        assert (Et : t = t').
        { destruct (tine_is_mk t K) as [M _], (tine_is_mk t' K') as [M' _].
          rewrite <- E, <- Ev, <- El, <- B', <- M in M'. congruence. }
        subst t'. f_equal. apply (IH (is_lower_bound t)); auto.
        intros p. specialize (H p). simpl in H. destruct (cmp p (loc t)) eqn:Ep.
        * apply cmp_eq in Ep. subst p. rewrite !den_low; auto.
        * rewrite !den_low; auto; intros u Hu; (eapply plt_trans; [exact Ep|auto]).
        * exact H.
      + exfalso. apply (Wrong b t s (t' :: s')); auto.
        intros u Hu. split; auto. destruct Hu as [<-|Hu]; auto. eapply plt_trans; [exact E|auto].
      + exfalso. apply cmp_gt_lt in E. apply (Wrong b t' s' (t :: s)); auto.
        intros u Hu. split; auto. destruct Hu as [<-|Hu]; auto. eapply plt_trans; [exact E|auto].
  Qed.

  Lemma den_ext s s' : wf s -> wf s' -> (forall p, den false s p = den false s' p) -> s = s'.
  Proof. intros [? ?] [? ?]. now apply den_ext_gen. Qed.

  (** ** Gluing *)
  Lemma srt_glue q L o R : srt L -> srt R -> bl q L -> ab q R -> at_loc q o -> srt (L ++ opt o ++ R).
  Proof.
    intros SL SR BL AR A. destruct o as [t|]; [|now apply (srt_bl q)].
    destruct A as [K E]. apply srt_app. split; auto. split.
    - constructor; auto. eapply Forall_impl; [|exact AR]. intros u [_ Hu]. now rewrite E.
    - eapply Forall_impl; [|exact BL]. intros u [_ Hu]. constructor; [now rewrite E|].
      eapply Forall_impl; [|exact AR]. intros w [_ Hw]. eapply plt_trans; eauto.
  Qed.

  Lemma chain_glue b L q c v d R e : allowed q c v d -> chain b L c = true -> chain d R e = true ->
    chain b (L ++ opt (mk q c v d) ++ R) e = true.
  Proof.
    intros A HL HR. apply chain_app. exists c. split; auto. apply chain_app. exists d. split; auto. now apply mk_chain.
  Qed.

  (** A set split at two locations. *)
  Inductive split2 ql qu s : Prop :=
  | Split2 L C R c0 vl c1 c2 vu c3 :
      s = L ++ opt (mk ql c0 vl c1) ++ C ++ opt (mk qu c2 vu c3) ++ R ->
      allowed ql c0 vl c1 -> allowed qu c2 vu c3 ->
      chain false L c0 = true -> chain c1 C c2 = true -> chain c3 R false = true ->
      bl ql L -> ab ql C -> bl qu C -> ab qu R -> srt L -> srt C -> srt R ->
      split2 ql qu s.

  Lemma split2_at ql qu s : tine_loc ql -> tine_loc qu -> lt ql qu -> wf s -> split2 ql qu s.
  Proof.
    intros Tl Tu Hlu [Ss Hc].
    destruct (split_at ql false s false) as (L & R & c0 & vl & c1 & -> & A & HL & HR & BL & AR & SL & SR); auto.
    destruct (split_at qu c1 R false) as (C & R' & c2 & vu & c3 & -> & A' & HC & HR' & BC & AR' & SC & SR'); auto.
    { intros ->. exfalso. apply (nothing_below_NInf _ Hlu). }
    apply ab_app in AR as [AC _].
    exact (Split2 ql qu _ L C R' c0 vl c1 c2 vu c3 eq_refl A A' HL HC HR' BL AC BC AR' SL SC SR').
  Qed.

  Lemma den_split2 p ql qu L C R c0 vl c1 c2 vu c3 :
    lt ql qu -> allowed ql c0 vl c1 -> allowed qu c2 vu c3 ->
    chain false L c0 = true -> chain c1 C c2 = true ->
    bl ql L -> ab ql C -> bl qu C -> ab qu R ->
    den false (L ++ opt (mk ql c0 vl c1) ++ C ++ opt (mk qu c2 vu c3) ++ R) p =
    match cmp p ql with
    | Lt => den false L p
    | Eq => vl
    | Gt => match cmp p qu with Lt => den c1 C p | Eq => vu | Gt => den c3 R p end
    end.
  Proof.
    intros Hlu A A' HL HC BL AC BC AR.
    rewrite (den_split false L (mk ql c0 vl c1) (C ++ opt (mk qu c2 vu c3) ++ R) p ql c0 vl c1); auto.
    - destruct (cmp p ql); auto. now apply (den_split c1 C (mk qu c2 vu c3) R p qu c2 vu c3).
    - apply ab_app. split; auto. apply ab_app. split; [|eapply ab_weaken; eauto].
      generalize (mk_at qu c2 vu c3). destruct (mk qu c2 vu c3); repeat constructor; destruct H as [? E]; auto. now rewrite E.
  Qed.

  Lemma wf_split2 ql qu L C R c0 vl c1 c2 vu c3 :
    lt ql qu -> allowed ql c0 vl c1 -> allowed qu c2 vu c3 ->
    chain false L c0 = true -> chain c1 C c2 = true -> chain c3 R false = true ->
    bl ql L -> ab ql C -> bl qu C -> ab qu R -> srt L -> srt C -> srt R ->
    wf (L ++ opt (mk ql c0 vl c1) ++ C ++ opt (mk qu c2 vu c3) ++ R).
  Proof.
    intros Hlu A A' HL HC HR BL AC BC AR SL SC SR. split.
    - apply (srt_glue ql); auto; [|apply ab_app; split; auto; apply ab_app; split; [|eapply ab_weaken; eauto]|apply mk_at].
      + apply (srt_glue qu); auto. apply mk_at.
      + generalize (mk_at qu c2 vu c3). destruct (mk qu c2 vu c3); repeat constructor; destruct H as [? E]; auto. now rewrite E.
    - apply chain_glue; auto. now apply chain_glue.
  Qed.

  (** ** An interval as a tree *)
  Lemma tines_cases (i : RawInterval T) : raw_wf i ->
    (i = Empty /\ tine_from_raw_interval i = []) \/
    (exists x, i = Point x /\ tine_from_raw_interval i = [TPoint (Include x)]) \/
    (exists l u : Bound T, raw_lower_bound i = Some l /\ raw_upper_bound i = Some u /\ lt (loc (TLower l)) (loc (TUpper u)) /\
       tine_from_raw_interval i = [TLower l; TUpper u] /\
       (forall p, covers i p =
          match cmp p (loc (TLower l)) with
          | Lt => false
          | Eq => incl_b l
          | Gt => match cmp p (loc (TUpper u)) with Lt => true | Eq => incl_b u | Gt => false end
          end)).
  Proof.
    intros W. destruct i; simpl in *;
      [left; auto | right; left; eauto | ..]; right; right; do 2 eexists;
      repeat match goal with |- _ /\ _ => split end; try reflexivity; unfold covers, loc; cbn [raw_lower_bound raw_upper_bound tine_into_inner lpos upos];
      try (unfold lt in W |- *; exact W); try (unfold lt; reflexivity).
    all: intros q; cbn [incl_b];
      repeat match goal with |- context [match cmp ?a ?b with _ => _ end] => destruct (cmp a b) eqn:? end; try porder.
  Qed.

  Lemma full_tree_wf : wf [TLower Infinite; TUpper (@Infinite T)].
  Proof. split; [|reflexivity]. repeat constructor. Qed.
  Lemma full_tree_den p : den false [TLower Infinite; TUpper (@Infinite T)] p = true.
  Proof. destruct p; reflexivity. Qed.
  Lemma covers_full p : covers (@Full T) p = true.
  Proof. unfold covers; cbn [raw_lower_bound raw_upper_bound lpos upos]. porder. Qed.
  Lemma raw_is_full_eq (i : RawInterval T) : raw_is_full i = true -> i = Full.
  Proof. destruct i; simpl; congruence. Qed.
  Lemma raw_is_empty_eq (i : RawInterval T) : raw_is_empty i = true -> i = Empty.
  Proof. destruct i; simpl; congruence. Qed.

  Lemma covers_point x p : covers (Point x) p = match cmp p (At x) with Eq => true | _ => false end.
  Proof.
    unfold covers; cbn [raw_lower_bound raw_upper_bound lpos upos].
    destruct (cmp p (At x)) eqn:?; try porder.
  Qed.

  (** ** Union *)
  Lemma union_in_place_ok dbg s (i : RawInterval T) : wf s -> raw_wf i ->
    exists s', tree_union_in_place dbg s i = Ok s' /\ wf s' /\ forall p, den false s' p = den false s p || covers i p.
  Proof.
    intros W Wi. unfold tree_union_in_place. destruct (raw_is_full i) eqn:EF.
    { apply raw_is_full_eq in EF. subst i. exists [TLower Infinite; TUpper Infinite]. split; [reflexivity|].
      split; [apply full_tree_wf|]. intros p. now rewrite full_tree_den, covers_full, orb_true_r. }
    destruct (tines_cases i Wi) as [(-> & E)|[(x & -> & E)|(l & u & EL & EU & Hlu & E & Hcov)]]; rewrite E.
    - exists s. split; auto. split; auto. intros p. now rewrite covers_empty, orb_false_r.
    - destruct W as [Ss Hc]. destruct (split_at (At x) false s false) as (L & R & c0 & v & c1 & -> & A & HL & HR & BL & AR & SL & SR);
        try exact I; try discriminate; auto.
      rewrite union_point_eq by auto. eexists. split; [reflexivity|]. split.
      + split; [apply (srt_glue (At x)); auto; apply (mk_at (At x))|now apply (chain_glue false L (At x) c0 true c1 R)].
      + intros p. rewrite (den_split false L _ R p (At x) c0 true c1), (den_split false L _ R p (At x) c0 v c1), covers_point by auto.
        destruct (cmp p (At x)); rewrite ?orb_false_r, ?orb_true_r; reflexivity.
    - destruct (split2_at (loc (TLower l)) (loc (TUpper u)) s) as [L C R c0 vl c1 c2 vu c3 -> A A' HL HC HR BL AC BC AR SL SC SR];
        auto using loc_tine.
      rewrite union_proper_eq by auto. eexists. split; [reflexivity|].
      assert (A1 : allowed (loc (TLower l)) c0 (vl || incl_b l) true).
      { destruct l; simpl in *; auto. destruct A as [-> ->]. rewrite orb_true_r. auto. }
      assert (A2 : allowed (loc (TUpper u)) true (vu || incl_b u) c3).
      { destruct u; simpl in *; auto. destruct A' as [-> ->]. rewrite orb_true_r. auto. }
      assert (HC0 : chain true (@nil (Tine T)) true = true) by reflexivity.
      split.
      + apply (wf_split2 _ _ L [] R c0 (vl || incl_b l) true true (vu || incl_b u) c3); auto; constructor.
      + intros p.
        rewrite (den_split2 p (loc (TLower l)) (loc (TUpper u)) L C R c0 vl c1 c2 vu c3) by auto.
        change (opt (mk (loc (TUpper u)) true (vu || incl_b u) c3) ++ R) with ([] ++ opt (mk (loc (TUpper u)) true (vu || incl_b u) c3) ++ R).
        rewrite (den_split2 p (loc (TLower l)) (loc (TUpper u)) L [] R c0 (vl || incl_b l) true true (vu || incl_b u) c3)
          by (auto; constructor).
        rewrite Hcov. destruct (cmp p (loc (TLower l))), (cmp p (loc (TUpper u))); cbn [den]; rewrite ?orb_false_r, ?orb_true_r; reflexivity.
  Qed.

  (** ** Difference *)

  (** An isolated missing point. *)
  Definition hole s (x : T) : bool := negb (den false s (At x)) && den false s (Lo x) && den false s (Hi x).
  (** The states just before and after a location. *)
  Lemma loc_Lo t x : lt (loc t) (At x) -> lt (loc t) (Lo x).
  Proof. destruct t as [[y|y|]|[y|y|]|[y|y|]]; unfold loc; simpl; porder. Qed.
  Lemma loc_Hi t x : lt (At x) (loc t) -> lt (Hi x) (loc t).
  Proof. destruct t as [[y|y|]|[y|y|]|[y|y|]]; unfold loc; simpl; porder. Qed.

  Lemma den_Lo b L R x c0 v c1 : chain b L c0 = true -> bl (At x) L -> ab (At x) R ->
    den b (L ++ opt (mk (At x) c0 v c1) ++ R) (Lo x) = c0.
  Proof.
    intros HL BL AR. rewrite (den_split b L _ R (Lo x) (At x) c0 v c1); simpl; auto.
    assert (E : cmp (Lo x) (At x) = Lt) by (assert (G : lt (Lo x) (At x)) by porder; exact G).
    rewrite E. apply den_high; auto. intros t Ht. apply loc_Lo. now apply (bl_in (At x) L).
  Qed.
  Lemma den_At b L R x c0 v c1 : chain b L c0 = true -> bl (At x) L -> ab (At x) R ->
    den b (L ++ opt (mk (At x) c0 v c1) ++ R) (At x) = v.
  Proof.
    intros HL BL AR. rewrite (den_split b L _ R (At x) (At x) c0 v c1); simpl; auto. now rewrite cmp_refl.
  Qed.
  Lemma den_Hi b L R x c0 v c1 : chain b L c0 = true -> bl (At x) L -> ab (At x) R ->
    den b (L ++ opt (mk (At x) c0 v c1) ++ R) (Hi x) = c1.
  Proof.
    intros HL BL AR. rewrite (den_split b L _ R (Hi x) (At x) c0 v c1); simpl; auto.
    assert (E : cmp (Hi x) (At x) = Gt) by (apply cmp_gt_lt; porder).
    rewrite E. apply den_low. intros t Ht. apply loc_Hi. now apply (ab_in (At x) R).
  Qed.

  (** The end point of a bound is an isolated missing point, at position [p]. *)
  Definition fills s (d : Bound T) p : bool :=
    match d with
    | Include x | Exclude x => match cmp p (At x) with Eq => hole s x | _ => false end
    | Infinite => false
    end.

  Lemma from_raw_wf (i : RawInterval T) : raw_wf i -> wf (tine_from_raw_interval i) /\ tree_from_raw_interval i = tine_from_raw_interval i
    /\ forall p, den false (tine_from_raw_interval i) p = covers i p.
  Proof.
    intros Wi. destruct (tines_cases i Wi) as [(-> & E)|[(x & -> & E)|(l & u & EL & EU & Hlu & E & Hcov)]]; unfold tree_from_raw_interval; rewrite E.
    - split; [|auto]. split; [constructor|reflexivity].
    - split; [split; [repeat constructor|reflexivity]|]. split; [reflexivity|]. intros p. rewrite covers_point. simpl.
      change (loc (TPoint (Include x))) with (At x). destruct (cmp p (At x)); reflexivity.
    - split; [split; [repeat constructor; auto|reflexivity]|]. split.
      + unfold btree_collect. simpl. rewrite tine_cmp_loc by reflexivity. unfold lt in Hlu. try rewrite Hlu. try (rewrite cmp_antisym, Hlu). reflexivity.
      + intros p. rewrite Hcov. simpl.
        destruct (cmp p (loc (TLower l))), (cmp p (loc (TUpper u))); reflexivity.
  Qed.

  Lemma minus_in_place_proper dbg s (i : RawInterval T) : wf s -> raw_wf i -> (forall x, i <> Point x) ->
    exists s', tree_minus_in_place dbg s i = Ok s' /\ wf s' /\
      forall p, den false s' p =
        (den false s p && negb (covers i p))
        || match raw_lower_bound i, raw_upper_bound i with Some l, Some u => fills s l p || fills s u p | _, _ => false end.
  Proof.
    intros W Wi NP. unfold tree_minus_in_place.
    destruct (tree_is_empty s || raw_is_empty i) eqn:EE.
    { exists s. split; auto. split; auto. intros p. apply orb_true_iff in EE as [EE|EE].
      - destruct s; [|discriminate]. simpl. destruct (raw_lower_bound i) as [[]|], (raw_upper_bound i) as [[]|]; simpl; auto;
          repeat match goal with |- context [match cmp ?a ?b with _ => _ end] => destruct (cmp a b) end; reflexivity.
      - apply raw_is_empty_eq in EE. subst i. simpl. now rewrite andb_true_r, orb_false_r. }
    apply orb_false_iff in EE as [Es Ei].
    destruct (raw_is_full i) eqn:EF.
    { apply raw_is_full_eq in EF. subst i. exists []. split; auto. split; [split; [constructor|reflexivity]|].
      intros p. simpl. now rewrite covers_full, andb_false_r. }
    destruct (tines_cases i Wi) as [(-> & E)|[(x & -> & E)|(l & u & EL & EU & Hlu & E & Hcov)]];
      [discriminate|exfalso; now apply (NP x)|rewrite E].
    destruct (split2_at (loc (TLower l)) (loc (TUpper u)) s) as [L C R c0 vl c1 c2 vu c3 -> A A' HL HC HR BL AC BC AR SL SC SR];
      auto using loc_tine.
    rewrite minus_proper_eq by auto. eexists. split; [reflexivity|].
    assert (A1 : allowed (loc (TLower l)) c0 (minus_at c0 vl c1 l) false).
    { destruct l; simpl in *; auto. destruct A as [-> ->]. unfold minus_at; simpl. rewrite andb_false_r. auto. }
    assert (A2 : allowed (loc (TUpper u)) false (minus_at c2 vu c3 u) c3).
    { destruct u; simpl in *; auto. destruct A' as [-> ->]. unfold minus_at; simpl. rewrite !andb_false_r. auto. }
    assert (AC' : ab (loc (TLower l)) (C ++ opt (mk (loc (TUpper u)) c2 vu c3) ++ R)).
    { apply ab_app; split; auto; apply ab_app; split; [|eapply ab_weaken; eauto].
      generalize (mk_at (loc (TUpper u)) c2 vu c3). destruct (mk (loc (TUpper u)) c2 vu c3); repeat constructor; destruct H as [? X]; auto. now rewrite X. }
    assert (BC' : bl (loc (TUpper u)) (L ++ opt (mk (loc (TLower l)) c0 vl c1) ++ C)).
    { apply bl_app; split; [eapply bl_weaken; eauto|]. apply bl_app; split; auto.
      generalize (mk_at (loc (TLower l)) c0 vl c1). destruct (mk (loc (TLower l)) c0 vl c1); repeat constructor; destruct H as [? X]; auto. now rewrite X. }
    assert (HLC : chain false (L ++ opt (mk (loc (TLower l)) c0 vl c1) ++ C) c2 = true) by now apply chain_glue.
    assert (Fl : forall p, fills (L ++ opt (mk (loc (TLower l)) c0 vl c1) ++ C ++ opt (mk (loc (TUpper u)) c2 vu c3) ++ R) l p =
      match cmp p (loc (TLower l)) with Eq => c0 && negb vl && c1 | _ => false end).
    { intros p. destruct l as [x|x|]; unfold fills;
        [change (loc (TLower (Include x))) with (At x) in *|change (loc (TLower (Exclude x))) with (At x) in *|change (loc (TLower Infinite)) with (@NInf T) in *].
      1,2: destruct (cmp p (At x)); auto; unfold hole; rewrite den_Lo, den_At, den_Hi by auto; destruct c0, vl, c1; reflexivity.
      destruct A as [-> ->]. simpl. destruct (cmp p NInf); reflexivity. }
    assert (Fu : forall p, fills (L ++ opt (mk (loc (TLower l)) c0 vl c1) ++ C ++ opt (mk (loc (TUpper u)) c2 vu c3) ++ R) u p =
      match cmp p (loc (TUpper u)) with Eq => c2 && negb vu && c3 | _ => false end).
    { intros p. rewrite 2 app_assoc. rewrite <- (app_assoc L).
      destruct u as [x|x|]; unfold fills;
        [change (loc (TUpper (Include x))) with (At x) in *|change (loc (TUpper (Exclude x))) with (At x) in *|change (loc (TUpper Infinite)) with (@PInf T) in *].
      1,2: destruct (cmp p (At x)); auto; unfold hole; rewrite den_Lo, den_At, den_Hi by auto; destruct c2, vu, c3; reflexivity.
      destruct A' as [-> ->]. destruct c2; simpl; destruct (cmp p PInf); reflexivity. }
    assert (HC0 : chain false (@nil (Tine T)) false = true) by reflexivity.
    split.
    - apply (wf_split2 _ _ L [] R c0 (minus_at c0 vl c1 l) false false (minus_at c2 vu c3 u) c3); auto; constructor.
    - intros p. rewrite EL, EU, Fl, Fu.
      rewrite (den_split2 p (loc (TLower l)) (loc (TUpper u)) L C R c0 vl c1 c2 vu c3) by auto.
      change (opt (mk (loc (TUpper u)) false (minus_at c2 vu c3 u) c3) ++ R) with ([] ++ opt (mk (loc (TUpper u)) false (minus_at c2 vu c3 u) c3) ++ R).
      rewrite (den_split2 p (loc (TLower l)) (loc (TUpper u)) L [] R c0 (minus_at c0 vl c1 l) false false (minus_at c2 vu c3 u) c3)
        by (auto; constructor).
      rewrite Hcov. unfold minus_at.
      destruct (cmp p (loc (TLower l))) eqn:E1, (cmp p (loc (TUpper u))) eqn:E2; cbn [den negb];
        try (exfalso; revert E1 E2 Hlu; clear; generalize (loc (TLower l)) (loc (TUpper u)); porder);
        rewrite ?andb_true_r, ?orb_false_r, ?andb_false_r; auto.
      + destruct c0, vl, c1, l; reflexivity.
      + destruct c2, vu, c3, u; reflexivity.
  Qed.

  (** The tree has an excluding tine at [x]: [x] is missing, a neighbour side is not. *)
  Definition rim s (x : T) : bool := negb (den false s (At x)) && (den false s (Lo x) || den false s (Hi x)).

  Lemma minus_in_place_point dbg s x : wf s -> rim s x = false ->
    exists s', tree_minus_in_place dbg s (Point x) = Ok s' /\ wf s' /\
      forall p, den false s' p = den false s p && negb (covers (Point x) p).
  Proof.
    intros W HR. unfold tree_minus_in_place. cbn [raw_is_empty raw_is_full tine_from_raw_interval]. rewrite orb_false_r.
    destruct (tree_is_empty s) eqn:Es.
    { exists s. split; auto. split; auto. intros p. destruct s; [reflexivity|discriminate]. }
    destruct W as [Ss Hc]. destruct (split_at (At x) false s false) as (L & R & c0 & v & c1 & -> & A & HL & HR' & BL & AR & SL & SR);
      try exact I; try discriminate; auto.
    unfold rim in HR. rewrite den_Lo, den_At, den_Hi in HR by auto.
    rewrite minus_point_eq by (auto; destruct c0, v, c1; auto; discriminate).
    eexists. split; [reflexivity|]. split.
    - split; [apply (srt_glue (At x)); auto; apply (mk_at (At x))|now apply (chain_glue false L (At x) c0 false c1 R)].
    - intros p. rewrite (den_split false L _ R p (At x) c0 false c1), (den_split false L _ R p (At x) c0 v c1), covers_point by auto.
      destruct (cmp p (At x)); cbn [negb]; rewrite ?andb_true_r, ?andb_false_r; reflexivity.
  Qed.

  (** Otherwise the result is malformed. *)
  Lemma minus_in_place_rim dbg s x : wf s -> rim s x = true ->
    exists s', tree_minus_in_place dbg s (Point x) = Ok s' /\ ~ wf s'.
  Proof.
    intros W HR. unfold tree_minus_in_place. cbn [raw_is_empty raw_is_full tine_from_raw_interval]. rewrite orb_false_r.
    destruct (tree_is_empty s) eqn:Es.
    { destruct s; [discriminate|discriminate]. }
    destruct W as [Ss Hc]. destruct (split_at (At x) false s false) as (L & R & c0 & v & c1 & -> & A & HL & HR' & BL & AR & SL & SR);
      try exact I; try discriminate; auto.
    unfold rim in HR. rewrite den_Lo, den_At, den_Hi in HR by auto.
    assert (v = false) as -> by (destruct v; auto).
    rewrite minus_point_bad by (auto; destruct c0, c1; auto).
    eexists. split; [reflexivity|]. intros [_ H]. apply chain_app in H as (m & H1 & H2).
    assert (m = c0) as -> by (eapply chain_end; eauto).
    destruct c0, c1; cbn [andb app] in H2; try discriminate.
    - destruct R as [|t R]; [discriminate|]. simpl in HR', H2. rewrite !andb_true_iff in HR', H2.
      destruct HR' as [[_ E1] _], H2 as [[_ E2] _]. destruct (is_upper_bound t); discriminate.
    - destruct R as [|t R]; [discriminate|]. simpl in HR', H2. rewrite !andb_true_iff in HR', H2.
      destruct HR' as [[_ E1] _], H2 as [[_ E2] _]. destruct (is_upper_bound t); discriminate.
  Qed.
End PTree2.
