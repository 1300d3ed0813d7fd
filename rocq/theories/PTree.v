(** * The set of positions a tree denotes *)
From Coq Require Import List Bool ZArith Lia Sorted.
From Verif Require Import Base OrdFacts Pos MBound MRaw MTine MBTree MTineTree Spec PRaw PRaw2 PBTree.
Import ListNotations.

#[local] Arguments cmp : simpl never.

Section PTree.
  Context {T : Type} {O : Ord T}.
  Implicit Types (t u : Tine T) (s L R C : list (Tine T)) (p q : pos T) (b c v : bool).

  (** Inside or outside before and after a tine: [is_upper_bound] and
      [is_lower_bound].  [chain b s c]: reading [s] from state [b] ends in
      state [c]. *)
  Fixpoint chain b s c : bool :=
    match s with
    | [] => Bool.eqb b c
    | t :: s' => okt t && Bool.eqb b (is_upper_bound t) && chain (is_lower_bound t) s' c
    end.

  Lemma alternates_chain b s : alternates b s = chain b s false.
  Proof.
    revert b. induction s as [|t s IH]; intros b; simpl; [now destruct b|].
    destruct t as [d|[]|d]; simpl; rewrite ?IH; destruct b; simpl; auto.
  Qed.

  Lemma chain_app b L R c : chain b (L ++ R) c = true <-> exists m, chain b L m = true /\ chain m R c = true.
  Proof.
    revert b. induction L as [|t L IH]; intros b; simpl.
    - split; [intros H; exists b; rewrite eqb_reflx; auto|]. intros (m & E & H). apply eqb_prop in E. now subst.
    - rewrite andb_true_iff, IH. split.
      + intros (H1 & m & H2 & H3). exists m. rewrite H1, H2. auto.
      + intros (m & H1 & H2). apply andb_true_iff in H1 as [H1 H3]. split; eauto.
  Qed.
  Lemma chain_end b s c d : chain b s c = true -> chain b s d = true -> c = d.
  Proof.
    revert b. induction s as [|t s IH]; intros b; simpl.
    - intros H1 H2. apply eqb_prop in H1, H2. congruence.
    - rewrite !andb_true_iff. intros [_ H1] [_ H2]. eauto.
  Qed.
  Lemma chain_ok b s c : chain b s c = true -> Forall (fun t => okt t = true) s.
  Proof.
    revert b. induction s as [|t s IH]; intros b; simpl; constructor;
      rewrite !andb_true_iff in H; [tauto|]. eapply IH. apply H.
  Qed.
  Lemma chain_last L b : chain false L b = true -> is_some_and is_lower_bound (btree_last L) = b.
  Proof.
    intros H. destruct (snoc_cases L) as [->|(L' & t & ->)].
    - now destruct b.
    - rewrite last_app_one. simpl. apply chain_app in H as (m & _ & H). simpl in H.
      apply andb_true_iff in H as [_ H]. now apply eqb_prop in H.
  Qed.
  Lemma chain_first R b : chain b R false = true -> is_some_and is_upper_bound (btree_first R) = b.
  Proof.
    destruct R as [|t R]; simpl; intros H.
    - now destruct b.
    - rewrite !andb_true_iff in H. destruct H as [[_ H] _]. apply eqb_prop in H. now subst.
  Qed.

  (** Sortedness by location. *)
  Definition srt s : Prop := StronglySorted (fun t u => lt (loc t) (loc u)) s.

  Lemma srt_app L R : srt (L ++ R) <-> srt L /\ srt R /\ Forall (fun t => Forall (fun u => lt (loc t) (loc u)) R) L.
  Proof.
    unfold srt. induction L as [|t L IH]; simpl.
    - split; [intros H; repeat split; auto; constructor|tauto].
    - split.
      + intros H. inversion H as [|? ? H1 H2]; subst. apply IH in H1 as (H3 & H4 & H5).
        apply Forall_app in H2 as [H6 H7]. repeat split; auto; constructor; auto.
      + intros (H1 & H2 & H3). inversion H1; inversion H3; subst. constructor; [tauto|]. apply Forall_app; auto.
  Qed.

  Lemma srt_bl q L R : srt L -> srt R -> bl q L -> ab q R -> srt (L ++ R).
  Proof.
    intros HL HR H1 H2. apply srt_app. repeat split; auto.
    eapply Forall_impl; [|exact H1]. intros t [_ Ht]. eapply Forall_impl; [|exact H2]. intros u [_ Hu].
    eapply plt_trans; eauto.
  Qed.

  Definition wf s : Prop := srt s /\ chain false s false = true.

  Lemma wf_tree_wf s : wf s <-> tree_wf s.
  Proof.
    unfold wf, tree_wf. rewrite alternates_chain.
    assert (H : chain false s false = true -> (srt s <-> StronglySorted (fun x y : Tine T => tine_cmp x y = Lt) s)).
    { intros H. apply chain_ok in H. unfold srt. induction s as [|t s IH].
      - split; constructor.
      - inversion H as [|? ? Kt Ks]; subst. split; intros S; inversion S as [|? ? S1 S2]; subst; constructor; try tauto.
        + rewrite Forall_forall in *. intros u Hu. rewrite tine_cmp_loc by auto. now apply S2.
        + rewrite Forall_forall in *. intros u Hu. specialize (S2 u Hu). rewrite tine_cmp_loc in S2 by auto. exact S2. }
    tauto.
  Qed.

  (** The value at the tine itself. *)
  Definition incl_b (d : Bound T) : bool := match d with Exclude _ => false | _ => true end.
  Definition atv t : bool := incl_b (tine_into_inner t).

  Fixpoint den b s p : bool :=
    match s with
    | [] => b
    | t :: s' =>
        match cmp p (loc t) with
        | Lt => b
        | Eq => atv t
        | Gt => den (is_lower_bound t) s' p
        end
    end.

  Lemma den_app_low b L R p : (forall t, In t R -> lt p (loc t)) -> den b (L ++ R) p = den b L p.
  Proof.
    intros H. revert b. induction L as [|t L IH]; intros b; simpl.
    - destruct R as [|r R]; auto. simpl. specialize (H r (or_introl eq_refl)). unfold lt in H. now rewrite H.
    - destruct (cmp p (loc t)); auto.
  Qed.
  Lemma den_app_high b L R p c : (forall t, In t L -> lt (loc t) p) -> chain b L c = true ->
    den b (L ++ R) p = den c R p.
  Proof.
    intros H. revert b. induction L as [|t L IH]; intros b; simpl.
    - intros E. apply eqb_prop in E. now subst.
    - rewrite !andb_true_iff. intros [_ Hc].
      assert (Ht := H t (or_introl eq_refl)). unfold lt in Ht. apply cmp_gt_lt in Ht. rewrite Ht.
      apply IH; auto. intros u Hu. apply H. now right.
  Qed.
  Lemma den_high b L p c : (forall t, In t L -> lt (loc t) p) -> chain b L c = true -> den b L p = c.
  Proof. intros H1 H2. rewrite <- (app_nil_r L). now rewrite (den_app_high b L [] p c). Qed.
  Lemma den_low b R p : (forall t, In t R -> lt p (loc t)) -> den b R p = b.
  Proof. intros H. change R with ([] ++ R). now rewrite den_app_low. Qed.

  Lemma bl_in q L t : bl q L -> In t L -> lt (loc t) q.
  Proof. unfold bl. rewrite Forall_forall. intros H Hi. now apply H. Qed.
  Lemma ab_in q R t : ab q R -> In t R -> lt q (loc t).
  Proof. unfold ab. rewrite Forall_forall. intros H Hi. now apply H. Qed.

  (** ** The tine for a change of state *)
  Definition mk q b v c : option (Tine T) :=
    match q with
    | At x =>
        match b, v, c with
        | false, false, false => None
        | false, true, false => Some (TPoint (Include x))
        | false, false, true => Some (TLower (Exclude x))
        | false, true, true => Some (TLower (Include x))
        | true, false, false => Some (TUpper (Exclude x))
        | true, true, false => Some (TUpper (Include x))
        | true, false, true => Some (TPoint (Exclude x))
        | true, true, true => None
        end
    | NInf => if negb b && c then Some (TLower Infinite) else None
    | PInf => if b && negb c then Some (TUpper Infinite) else None
    | _ => None
    end.

  (** The states a location allows. *)
  Definition allowed q b v c : Prop :=
    match q with
    | At _ => True
    | NInf => b = false /\ v = c
    | PInf => c = false /\ v = b
    | _ => False
    end.

  Lemma mk_spec q b v c : allowed q b v c ->
    match mk q b v c with
    | None => b = c /\ v = b
    | Some t => okt t = true /\ loc t = q /\ is_upper_bound t = b /\ is_lower_bound t = c /\ atv t = v
    end.
  Proof. destruct q, b, v, c; simpl; intuition congruence. Qed.

  Lemma mk_at q b v c : at_loc q (mk q b v c).
  Proof. destruct q, b, v, c; simpl; auto. Qed.

  Lemma mk_chain q b v c : allowed q b v c -> chain b (opt (mk q b v c)) c = true.
  Proof.
    intros A. generalize (mk_spec q b v c A). destruct (mk q b v c) as [t|]; simpl.
    - intros (-> & _ & -> & -> & _). now rewrite !eqb_reflx.
    - intros [-> _]. apply eqb_reflx.
  Qed.

  Lemma tine_is_mk t : okt t = true ->
    Some t = mk (loc t) (is_upper_bound t) (atv t) (is_lower_bound t) /\
    allowed (loc t) (is_upper_bound t) (atv t) (is_lower_bound t).
  Proof. destruct t as [[]|[]|[]]; simpl; try discriminate; auto. Qed.

  (** A set split at a location. *)
  Lemma den_split b L o R p q c v d : allowed q c v d -> o = mk q c v d ->
    chain b L c = true -> bl q L -> ab q R ->
    den b (L ++ opt o ++ R) p =
    match cmp p q with Lt => den b L p | Eq => v | Gt => den d R p end.
  Proof.
    intros A -> HL HbL HaR. generalize (mk_spec q c v d A). generalize (mk_at q c v d).
    assert (inL : forall t, In t L -> lt (loc t) q) by (intros; eapply bl_in; eauto).
    assert (inR : forall t, In t R -> lt q (loc t)) by (intros; eapply ab_in; eauto).
    destruct (cmp p q) eqn:E; destruct (mk q c v d) as [t|]; simpl opt; cbn [at_loc].
    - intros [_ El] (_ & _ & _ & _ & <-). apply cmp_eq in E. subst p.
      rewrite (den_app_high b L _ q c) by auto. simpl. rewrite El, cmp_refl. auto.
    - intros _ [-> ->]. apply cmp_eq in E. subst p. simpl.
      rewrite (den_app_high b L _ q d) by auto. now apply den_low.
    - intros [_ El] _. apply den_app_low. simpl. intros u [<-|Hu]; [now rewrite El|]. eapply plt_trans; [exact E|auto].
    - intros _ _. simpl. apply den_app_low. intros u Hu. eapply plt_trans; [exact E|auto].
    - intros [_ El] (_ & _ & _ & <- & _). apply cmp_gt_lt in E.
      rewrite (den_app_high b L _ p c) by (first [exact HL | intros u Hu; eapply plt_trans; [|exact E]; auto]). simpl.
      rewrite El. apply cmp_gt_lt in E. now rewrite E.
    - intros _ [-> ->]. apply cmp_gt_lt in E. simpl.
      now rewrite (den_app_high b L _ p d) by (first [exact HL | intros u Hu; eapply plt_trans; [|exact E]; auto]).
  Qed.

  Definition tine_loc q : Prop := match q with Lo _ | Hi _ => False | _ => True end.
  Lemma loc_tine t : tine_loc (loc t).
  Proof. destruct t as [[]|[]|[]]; simpl; auto. Qed.

  Lemma nothing_below_NInf q : ~ lt q (@NInf T).
  Proof. destruct q; unfold lt; simpl; discriminate. Qed.
  Lemma nothing_above_PInf q : ~ lt (@PInf T) q.
  Proof. destruct q; unfold lt; simpl; discriminate. Qed.

  Lemma split_at q b s c :
    tine_loc q -> srt s -> chain b s c = true ->
    (q = NInf -> b = false) -> (q = PInf -> c = false) ->
    exists L R c0 v c1,
      s = L ++ opt (mk q c0 v c1) ++ R /\ allowed q c0 v c1 /\
      chain b L c0 = true /\ chain c1 R c = true /\ bl q L /\ ab q R /\ srt L /\ srt R.
  Proof.
    intros Tq. revert b. induction s as [|t s IH]; intros b Ss Hc Hn Hp.
    - simpl in Hc. apply eqb_prop in Hc. subst c. exists [], [], b, b, b.
      assert (E : mk q b b b = None) by (destruct q, b; reflexivity). rewrite E. simpl.
      repeat split; auto; try (apply eqb_reflx); try constructor.
      destruct q; simpl in *; auto; destruct b; auto; try (specialize (Hn eq_refl)); try (specialize (Hp eq_refl)); auto.
    - inversion Ss as [|? ? S1 S2]; subst. simpl in Hc. rewrite !andb_true_iff in Hc. destruct Hc as [[K B] Hc].
      apply eqb_prop in B. subst b. rewrite Forall_forall in S2.
      assert (Oks := chain_ok _ _ _ Hc). rewrite Forall_forall in Oks.
      destruct (cmp q (loc t)) eqn:E.
      + apply cmp_eq in E. subst q. destruct (tine_is_mk t K) as [Et A].
        exists [], s, (is_upper_bound t), (atv t), (is_lower_bound t). rewrite <- Et. simpl.
        split; auto. split; auto. split; [apply eqb_reflx|]. split; auto. split; [constructor|].
        split; [|split; [constructor|auto]]. apply Forall_forall. intros u Hu. split; auto.
      + exists [], (t :: s), (is_upper_bound t), (is_upper_bound t), (is_upper_bound t).
        assert (Em : mk q (is_upper_bound t) (is_upper_bound t) (is_upper_bound t) = None)
          by (destruct q, (is_upper_bound t); reflexivity).
        rewrite Em. simpl. rewrite K, !eqb_reflx. repeat split; auto; try constructor; auto.
        * destruct q; simpl in *; auto. exfalso. apply (nothing_above_PInf _ E).
        * apply Forall_forall. intros u Hu. split; auto. eapply plt_trans; [exact E|]. auto.
      + destruct (IH (is_lower_bound t) S1 Hc) as (L & R & c0 & v & c1 & -> & A & HL & HR & BL & AR & SL & SR); auto.
        { intros ->. apply cmp_gt_lt in E. exfalso. apply (nothing_below_NInf _ E). }
        exists (t :: L), R, c0, v, c1. apply cmp_gt_lt in E.
        repeat split; auto.
        * simpl. now rewrite K, eqb_reflx, HL.
        * constructor; auto.
        * constructor; auto. apply Forall_forall. intros u Hu. apply S2. apply in_or_app. now left.
  Qed.
End PTree.
