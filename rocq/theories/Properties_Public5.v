(** * Adding or removing an interval without values (C113) *)
From Coq Require Import List Bool ZArith Lia Sorted.
From Verif Require Import Base OrdFacts Pos PFinite MBound MRaw MNormalize MTine MBTree MTineTree Ints MInterval MSelection
  Spec Spec_Tree Instances PRaw PRaw2 PNorm PIter PInterval PBTree PTree PTreeOps PTreeIsect PTree2 PTree3
  Properties_Raw Properties_Interval Properties_Public Properties_Exact Properties_Exact3 Properties_Public3.
Import ListNotations.
Local Open Scope list_scope.
Local Arguments cmp : simpl never.

Lemma closed_out {T} {O : Ord T} (a b x : T) : lt b a -> raw_contains (Closed a b) x = false.
Proof.
  intros H. apply not_true_iff_false. cbn. rewrite andb_true_iff, ?gtb_iff, ?geb_iff, ?ltb_iff, ?leb_iff. intros [].
  revert H. order.
Qed.

(** ** Refutations: nothing is added or removed, and yet the set changes *)

(** [2, 9] together with the out-of-order [5, 2] is [5, 9]: 2, 3 and 4 are gone, and
    nothing panics. *)
Theorem C113_tree_union_refuted :
  exists (s s' : TineTree Z) r, (forall x, raw_contains r x = false) /\ tree_wf s /\ tree_wf s' /\
    (forall dbg, tree_union_in_place dbg s r = Ok s') /\
    forall dbg, tree_contains dbg s 3%Z = Ok true /\ tree_contains dbg s' 3%Z = Ok false.
Proof.
  exists (tree_from_raw_interval (Closed 2 9)%Z), (tree_from_raw_interval (Closed 5 9)%Z), (Closed 5 2)%Z.
  assert (W : forall a b : Z, lt a b -> tree_wf (tree_from_raw_interval (Closed a b))).
  { intros a b H. apply wf_tree_wf. destruct (from_raw_wf (Closed a b) H) as (W & -> & _). exact W. }
  split; [intros x; now apply closed_out|]. split; [now apply W|]. split; [now apply W|].
  split; [intros []; reflexivity|]. intros []; split; reflexivity.
Qed.
Print Assumptions C113_tree_union_refuted.

(** [0, 2] without the out-of-order [5, 2] is [0, 5): 3 and 4 are there now. *)
Theorem C113_tree_minus_refuted :
  exists (s s' : TineTree Z) r, (forall x, raw_contains r x = false) /\ tree_wf s /\ tree_wf s' /\
    (forall dbg, tree_minus_in_place dbg s r = Ok s') /\
    forall dbg, tree_contains dbg s 3%Z = Ok false /\ tree_contains dbg s' 3%Z = Ok true.
Proof.
  exists (tree_from_raw_interval (Closed 0 2)%Z), (tree_from_raw_interval (RightOpen 0 5)%Z), (Closed 5 2)%Z.
  split; [intros x; now apply closed_out|]. split; [repeat constructor|]. split; [repeat constructor|].
  split; [intros []; reflexivity|]. intros []; split; reflexivity.
Qed.
Print Assumptions C113_tree_minus_refuted.

(** The ends need not be out of order: (3, 3) holds nothing either, and taking it
    away from [0, 5) and (5, 9] takes (3, 5) away. *)
Theorem C113_tree_minus_open_refuted :
  exists (s s' : TineTree Z), tree_wf s /\
    (forall dbg, tree_minus_in_place dbg s (Open 3 3)%Z = Ok s') /\
    forall dbg, tree_contains dbg s 4%Z = Ok true /\ tree_contains dbg s' 4%Z = Ok false.
Proof.
  exists [TLower (Include 0%Z); TPoint (Exclude 5%Z); TUpper (Include 9%Z)].
  exists [TLower (Include 0%Z); TUpper (Include 3%Z); TPoint (Exclude 5%Z); TUpper (Include 9%Z)].
  split; [repeat constructor|]. split; [intros []; reflexivity|]. intros []; split; reflexivity.
Qed.
Print Assumptions C113_tree_minus_open_refuted.

Section Nothing.
  Context {T : Type} {O : Ord T}.
  Implicit Types (r : RawInterval T) (t u : Tine T) (s L R : list (Tine T)).

  (** No interval of the tree begins or ends at [x]. *)
  Definition no_bound_at s (x : T) : Prop :=
    forall t, In t s -> tine_into_inner t <> Include x /\ tine_into_inner t <> Exclude x.

  Lemma collect_reads fuel : forall s o acc,
    match o with Some t => is_lower_bound t = true | None => True end ->
    reads (match o with Some _ => true | None => false end) s = false ->
    iter_fold_fuel fuel true (fun acc (i : RawInterval T) => Ok (i :: acc))
      {| tine_iter := s; saved_lower := o; saved_upper := None |} acc = Panic.
  Proof.
    induction fuel as [|fuel IH]; intros s o acc Ho H; [reflexivity|]. cbn [iter_fold_fuel].
    assert (G : forall w s acc, is_lower_bound w = true -> reads true s = false ->
      (do (x, it') <- iter_next true {| tine_iter := s; saved_lower := Some w; saved_upper := None |};
       match x with
       | Some i => do acc' <- Ok (i :: acc); iter_fold_fuel fuel true (fun acc (i : RawInterval T) => Ok (i :: acc)) it' acc'
       | None => Ok acc
       end) = Panic).
    { clear s o acc Ho H. intros w s acc Hw H.
      destruct s as [|t s]; [destruct w as [|[]|]; try discriminate; reflexivity|].
      destruct w as [d|[x|x|]|d]; try discriminate; destruct t as [e|[y|y|]|e]; cbn in H |- *; try reflexivity; apply IH; auto. }
    destruct o as [w|]; [now apply G|].
    destruct s as [|t s]; [discriminate|]. destruct t as [d|[x|x|]|d]; cbn in H; try reflexivity.
    - exact (G (TLower d) s acc eq_refl H).
    - cbn. now apply IH.
    - exact (G (TPoint (Exclude x)) s acc eq_refl H).
  Qed.

  Lemma unreadable s : reads false s = false -> iter_collect true (tree_interval_iter s) = Panic.
  Proof.
    intros H. unfold iter_collect, iter_fold, tree_interval_iter. now rewrite (collect_reads _ s None).
  Qed.

  Lemma reads_app L R : forall b, reads false R = false -> reads true R = false -> reads b (L ++ R) = false.
  Proof.
    induction L as [|t L IH]; intros b F G; [now destruct b|].
    destruct t as [d|[x|x|]|d], b; cbn; auto.
  Qed.
  Lemma reads_chain L R : forall b c, chain b L c = true -> reads b (L ++ R) = reads c R.
  Proof.
    induction L as [|t L IH]; intros b c H; [apply eqb_prop in H; now subst|].
    apply chain_cons in H as (K & U & H). rewrite <- app_comm_cons.
    destruct t as [d|[x|x|]|d]; cbn in *; subst b; cbn; auto; discriminate.
  Qed.
  Lemma reads_mismatch L : chain false L true = true -> forall R, reads true (L ++ R) = false.
  Proof.
    destruct L as [|t L]; [discriminate|]. intros H R. apply chain_cons in H as (K & U & H).
    destruct t as [d|[x|x|]|d]; cbn in *; auto; discriminate.
  Qed.
  Lemma reads_mismatch_end L : chain false L false = true -> reads true L = false.
  Proof.
    destruct L as [|t L]; [reflexivity|]. intros H. apply chain_cons in H as (K & U & H).
    destruct t as [d|[x|x|]|d]; cbn in *; auto; discriminate.
  Qed.

  Lemma take_none t s : okt t = true -> Forall (fun x => okt x = true /\ loc x <> loc t) s -> btree_take t s = (None, s).
  Proof.
    intros K. induction 1 as [|x s [Kx Hx] _ IH]; cbn; auto. rewrite tine_cmp_loc by auto.
    destruct (cmp (loc t) (loc x)) eqn:E; auto; [apply cmp_eq in E; congruence|]. now rewrite IH.
  Qed.

  Lemma insert_before u l L R : okt u = true -> okt l = true -> lt (loc u) (loc l) ->
    btree_insert u (L ++ l :: R) = btree_insert u L ++ l :: R.
  Proof.
    intros Ku Kl H. induction L as [|x L IH]; cbn.
    - rewrite tine_cmp_loc by auto. unfold lt in H. now rewrite H.
    - destruct (tine_cmp u x); auto. now rewrite IH.
  Qed.
  Lemma insert_same u l L R : okt u = true -> okt l = true -> loc u = loc l -> bl (loc l) L ->
    btree_insert u (L ++ l :: R) = L ++ l :: R.
  Proof.
    intros Ku Kl E. induction 1 as [|x L [Kx Hx] _ IH]; cbn; rewrite tine_cmp_loc by auto; rewrite E.
    - now rewrite cmp_refl.
    - unfold lt in Hx. rewrite (proj2 (cmp_gt_lt _ _) Hx). now rewrite IH.
  Qed.

  (** What [exterior_split] finds for an out-of-order pair. *)
  Lemma split_out s (l u : Tine T) (a : T) : wf s -> okt l = true -> okt u = true -> loc l = At a -> ~ lt (At a) (loc u) ->
    (forall t, In t s -> loc t <> At a /\ loc t <> loc u) ->
    exists L R c, s = L ++ R /\ chain false L c = true /\ chain c R false = true /\ bl (At a) L /\ ab (At a) R /\
      den false s (At a) = c /\
      exterior_split_for_proper_interval l u s = ((btree_last L, None, None, btree_first R), s).
  Proof.
    intros [Ss Hc] Kl Ku El Hu N.
    destruct (split_at (At a) false s false) as (L & R & c0 & v & c1 & E & A & HL & HR & BL & AR & SL & SR); auto; try discriminate.
    exact I.
    generalize (mk_spec (At a) c0 v c1 A). destruct (mk (At a) c0 v c1) as [t|] eqn:M.
    - intros (_ & Lt & _). exfalso. destruct (N t) as [Q _]; [|now apply Q]. rewrite E. apply in_or_app. right. now left.
    - intros [<- ->]. cbn in E. exists L, R, c0.
      assert (D : den false s (At a) = c0).
      { rewrite E. generalize (den_split false L None R (At a) (At a) c0 c0 c0 A (eq_sym M) HL BL AR). cbn. now rewrite cmp_refl. }
      repeat split; auto.
      assert (Oks := chain_ok _ _ _ Hc).
      assert (Tl : btree_take l s = (None, s)).
      { apply take_none; auto. rewrite Forall_forall in *. intros t Ht. split; auto. rewrite El. now apply N. }
      assert (Tu : btree_take u s = (None, s)).
      { apply take_none; auto. rewrite Forall_forall in *. intros t Ht. split; auto. now apply N. }
      assert (Sl : btree_split_off l s = (L, R)).
      { rewrite E. apply split_off_split; auto; now rewrite El. }
      assert (Su : btree_split_off u R = ([], R)).
      { apply (split_off_split u [] R); auto; [constructor|].
        eapply Forall_impl; [|exact AR]. intros t [Kt Ht]. split; auto.
        destruct (cmp (loc u) (At a)) eqn:C; [apply cmp_eq in C; now rewrite C|eapply plt_trans; eauto|].
        apply cmp_gt_lt in C. contradiction. }
      unfold exterior_split_for_proper_interval. rewrite Tl, Tu, Sl, Su, (append_split (At a)) by auto. now rewrite <- E.
  Qed.

  (** [r] is written with two ends, a lower one at [a] and an upper one at [b]. *)
  Lemma written_tines r lb ub a b : written r lb ub a b -> (forall x, r <> Point x) ->
    tine_from_raw_interval r = [TLower lb; TUpper ub] /\ raw_is_full r = false /\ raw_is_empty r = false.
  Proof.
    intros (L & U & A & B) N. destruct r; cbn in *; try discriminate; try (now edestruct N);
      injection L as <-; injection U as <-; auto; destruct A, B; discriminate.
  Qed.
  Lemma loc_bound (d : Bound T) a : d = Include a \/ d = Exclude a -> loc (TLower d) = At a /\ loc (TUpper d) = At a.
  Proof. intros [-> | ->]; split; reflexivity. Qed.
  Lemma no_bound_loc s x : Forall (fun t => okt t = true) s -> no_bound_at s x -> forall t, In t s -> loc t <> At x.
  Proof.
    intros K N t Ht E. destruct (N t Ht) as [N1 N2]. destruct t as [[y|y|]|[y|y|]|[y|y|]]; cbn in *; try discriminate;
      inversion E; subst; congruence.
  Qed.
  Lemma not_lt_pos (a b : T) : ~ lt a b -> ~ lt (At a) (At b).
  Proof. intros H G. apply H. exact G. Qed.

  (** Adding an interval written with its ends at one value or out of order, to a
      tree with no interval ending there: nothing happens if the tree holds the
      value of the lower end, and the tree is broken if it does not. *)
  Theorem C113_union_exact_partial s r lb ub a b : tree_wf s -> written r lb ub a b -> (forall x, r <> Point x) ->
    ~ lt a b -> no_bound_at s a -> no_bound_at s b ->
    forall dbg, exists s', tree_union_in_place dbg s r = Ok s' /\
      (tree_contains dbg s a = Ok true -> s' = s) /\
      (tree_contains dbg s a = Ok false -> iter_collect true (tree_interval_iter s') = Panic).
  Proof.
    intros W Wr NP H Na Nb dbg. apply wf_tree_wf in W. assert (W' := W). destruct W' as [_ Hc].
    destruct (written_tines r lb ub a b Wr NP) as (Et & Ef & Ee). destruct Wr as (_ & _ & La & Lb).
    destruct (loc_bound lb a La) as [Ll _]. destruct (loc_bound ub b Lb) as [_ Lu].
    destruct (split_out s (TLower lb) (TUpper ub) a) as (L & R & c & E & HL & HR & BL & AR & D & X); auto.
    { rewrite Lu. now apply not_lt_pos. }
    { intros t Ht. rewrite Lu. split; (eapply no_bound_loc; [exact (chain_ok _ _ _ Hc)|eassumption|exact Ht]). }
    unfold tree_union_in_place. rewrite Ef, Et. unfold union_proper_interval. rewrite X.
    rewrite tree_contains_den by auto. rewrite D. cbn [bind map_or_true is_lower_bound is_upper_bound].
    assert (A1 : debug_assert dbg true = Ok tt) by (destruct dbg; reflexivity). cbn [bind].
    rewrite !A1. cbn [bind]. rewrite (chain_last L c HL), (chain_first R c HR). destruct c.
    - exists s. repeat split; auto. discriminate.
    - cbn [negb]. rewrite !A1. cbn [bind]. eexists. split; [reflexivity|]. split; [discriminate|]. intros _.
      apply unreadable. rewrite E at 1. rewrite insert_split by (auto; now rewrite Ll).
      assert (F : reads false (TLower lb :: R) = false) by now apply reads_mismatch_end.
      assert (G : reads true (TLower lb :: R) = false) by reflexivity.
      destruct (cmp b a) eqn:C.
      + apply cmp_eq in C. subst b. rewrite insert_same by (auto; rewrite Ll; auto). now apply reads_app.
      + rewrite insert_before by (auto; rewrite Ll, Lu; exact C). now apply reads_app.
      + exfalso. apply H. now apply cmp_gt_lt.
  Qed.

  (** Removing one: nothing happens exactly if the tree does not hold the value of
      the lower end; with the ends out of order the tree is broken otherwise. *)
  Theorem C113_minus_exact_partial s r lb ub a b : tree_wf s -> written r lb ub a b -> (forall x, r <> Point x) ->
    ~ lt a b -> no_bound_at s a -> no_bound_at s b ->
    forall dbg, exists s', tree_minus_in_place dbg s r = Ok s' /\
      (tree_contains dbg s a = Ok false -> s' = s) /\
      (tree_contains dbg s a = Ok true -> s' <> s /\ (lt b a -> iter_collect true (tree_interval_iter s') = Panic)).
  Proof.
    intros W Wr NP H Na Nb dbg. apply wf_tree_wf in W. assert (W' := W). destruct W' as [Ss Hc].
    destruct (written_tines r lb ub a b Wr NP) as (Et & Ef & Ee). destruct Wr as (_ & _ & La & Lb).
    destruct (loc_bound lb a La) as [Ll _]. destruct (loc_bound ub b Lb) as [_ Lu].
    assert (N : forall t, In t s -> loc t <> At a /\ loc t <> At b).
    { intros t Ht. split; (eapply no_bound_loc; [exact (chain_ok _ _ _ Hc)|eassumption|exact Ht]). }
    destruct (split_out s (TLower lb) (TUpper ub) a) as (L & R & c & E & HL & HR & BL & AR & D & X); auto.
    { rewrite Lu. now apply not_lt_pos. }
    { intros t Ht. rewrite Lu. auto. }
    unfold tree_minus_in_place. rewrite Ef, Et, Ee, orb_false_r. rewrite tree_contains_den by auto. rewrite D.
    destruct (tree_is_empty s) eqn:Em.
    { exists s. split; auto. split; auto. intros Q. injection Q as ->.
      destruct s; [|discriminate]. destruct L; [discriminate HL|discriminate E]. }
    unfold minus_proper_interval. rewrite X. cbn [bind]. rewrite (chain_last L c HL), (chain_first R c HR). destruct c.
    - assert (I1 : exists d, as_upper (TLower lb) = Ok (TUpper d) /\ loc (TUpper d) = At a)
        by (destruct La as [->| ->]; eexists; split; reflexivity).
      assert (I2 : exists d, as_lower (TUpper ub) = Ok (TLower d) /\ loc (TLower d) = At b)
        by (destruct Lb as [->| ->]; eexists; split; reflexivity).
      destruct I1 as (d & -> & L1), I2 as (e & -> & L2). cbn [bind].
      eexists. split; [reflexivity|]. split; [discriminate|]. intros _.
      assert (Ed : btree_insert (TUpper d) s = L ++ TUpper d :: R).
      { rewrite E. apply insert_split; auto; now rewrite L1. }
      rewrite Ed.
      assert (In1 : forall L', ~ (L' ++ TUpper d :: R = s)).
      { intros L' Q. destruct (N (TUpper d)) as [Q' _]; [|now apply Q']. rewrite <- Q. apply in_or_app. right. now left. }
      destruct (cmp b a) eqn:C.
      + apply cmp_eq in C. subst b. rewrite insert_same by (auto; rewrite L1; auto). split; [auto|].
        intros Q. exfalso. revert Q. apply lt_irrefl.
      + rewrite insert_before by (auto; rewrite L1, L2; exact C). split; [apply In1|]. intros _. apply unreadable.
        destruct (split_at (At b) false L true) as (L0 & C0 & c0 & v & c1 & E0 & A & HL0 & HC0 & BL0 & AC0 & _ & _); auto; try discriminate.
        { exact I. } { rewrite E in Ss. apply srt_app in Ss. tauto. }
        generalize (mk_spec (At b) c0 v c1 A). destruct (mk (At b) c0 v c1) as [t|] eqn:M.
        { intros (_ & Q & _). exfalso. destruct (N t) as [_ Q']; [|now apply Q']. rewrite E, E0. apply in_or_app. left. apply in_or_app. right. now left. }
        intros [<- ->]. cbn in E0. rewrite E0, insert_split by (auto; rewrite L2; auto).
        rewrite <- app_assoc, <- app_comm_cons, (reads_chain L0 _ false c0 HL0).
        destruct c0; [reflexivity|]. cbn [reads negb andb]. now apply reads_mismatch.
      + exfalso. apply H. now apply cmp_gt_lt.
    - exists s. split; auto. split; auto. discriminate.
  Qed.

  (** Intersecting with one, in a build with debug assertions: a panic unless the
      tree is empty. *)
  Theorem C113_intersect_exact_partial s r lb ub a b : written r lb ub a b -> (forall x, r <> Point x) -> ~ lt a b ->
    tree_intersect_in_place true s r = if tree_is_empty s then Ok s else Panic.
  Proof.
    intros Wr NP H. destruct (written_tines r lb ub a b Wr NP) as (Et & Ef & Ee). destruct Wr as (_ & _ & La & Lb).
    destruct (loc_bound lb a La) as [Ll _]. destruct (loc_bound ub b Lb) as [_ Lu].
    unfold tree_intersect_in_place. rewrite Ef, Ee, orb_false_r, Et. destruct (tree_is_empty s); auto.
    assert (P : intersect_proper_interval true (TLower lb) (TUpper ub) s = Panic).
    { unfold intersect_proper_interval, interior_split_for_proper_interval.
      rewrite tine_cmp_loc, Ll, Lu by reflexivity.
      destruct (cmp (At a) (At b)) eqn:C; auto. exfalso. now apply H. }
    destruct r; auto; discriminate.
  Qed.
End Nothing.
Print Assumptions C113_union_exact_partial.
Print Assumptions C113_minus_exact_partial.
Print Assumptions C113_intersect_exact_partial.

Section Selections.
  Context {T : Type} {O : Ord T} {F : Finite T}.

  (** The same of Selections, for an Interval made from the out-of-order
      [Closed(l, u)].  With no value strictly between [u] and [l], adding it
      leaves the values as they are.  Otherwise, for a Selection with no interval ending next
      to [l] or [u], what happens is decided by the value before [l]. *)
  Theorem C113_selection_partial (s : Selection T) (l u : T) : tree_wf s -> lt u l ->
    ((forall x, ~ (lt u x /\ lt x l)) -> forall dbg, exists s',
       sel_union_in_place dbg s (interval_from_raw (Closed l u)) = Ok s' /\ tree_wf s' /\
       forall x, sel_contains dbg s' x = sel_contains dbg s x) /\
    (forall a b, pred l = Some a -> succ u = Some b -> (exists x, lt u x /\ lt x l) -> no_bound_at s a -> no_bound_at s b ->
       forall dbg,
       (exists s', sel_union_in_place dbg s (interval_from_raw (Closed l u)) = Ok s' /\
          (sel_contains dbg s a = Ok true -> s' = s) /\
          (sel_contains dbg s a = Ok false -> iter_collect true (tree_interval_iter s') = Panic)) /\
       (exists s', sel_minus_in_place dbg s (interval_from_raw (Closed l u)) = Ok s' /\
          (sel_contains dbg s a = Ok false -> s' = s) /\
          (sel_contains dbg s a = Ok true -> s' <> s /\ (lt b a -> iter_collect true (tree_interval_iter s') = Panic)))).
  Proof.
    intros W H.
    assert (N : interval_raw (interval_from_raw (Closed l u)) = Closed l u) by reflexivity.
    assert (P : exists a, pred l = Some a) by (destruct (pred l) as [a|] eqn:E; eauto; exfalso; forder).
    assert (S : exists b, succ u = Some b) by (destruct (succ u) as [b|] eqn:E; eauto; exfalso; forder).
    destruct P as (a & P), S as (b & S).
    unfold sel_union_in_place, sel_minus_in_place, sel_contains. rewrite N. cbn [denormalized]. rewrite P, S. split.
    - intros X dbg.
      assert (Hab : lt a b) by (specialize (X b); assert (Y := X); clear X; forder).
      apply wf_tree_wf in W. destruct (union_in_place_ok dbg s (Open a b) W Hab) as (s' & -> & W' & H'). exists s'.
      split; auto. split; [now apply wf_tree_wf|]. intros x. rewrite !tree_contains_den by auto. f_equal.
      rewrite H', covers_At. destruct (raw_contains (Open a b) x) eqn:E; [exfalso|apply orb_false_r].
      cbn in E. rewrite andb_true_iff, gtb_iff, ltb_iff in E. clear H'. forder.
    - intros a' b' [= <-] [= <-] (x & X) Na Nb dbg.
      assert (Hab : ~ lt a b) by forder.
      split; [apply (C113_union_exact_partial s (Open a b) (Exclude a) (Exclude b) a b)|apply (C113_minus_exact_partial s (Open a b) (Exclude a) (Exclude b) a b)];
        auto; try discriminate; repeat split; auto.
  Qed.
End Selections.
Print Assumptions C113_selection_partial.

Local Open Scope Z_scope.

(** Taking the out-of-order [9, 4], which contains nothing, away from the Selection of 3 and 4
    changes its values in both builds, and nothing panics. *)
Theorem C113_selection_minus_refuted :
  exists (i j : Interval i8), (forall x, interval_contains j x = false) /\ interval_is_empty j = false /\
    forall dbg, exists s', sel_minus_in_place dbg (sel_from i) j = Ok s' /\
      sel_contains dbg (sel_from i) (v 6) = Ok false /\ sel_contains dbg s' (v 6) = Ok true.
Proof.
  exists (interval_from_raw (Closed (v 3) (v 4))), (interval_from_raw (Closed (v 9) (v 4))).
  split; [intros x; now apply (closed_out (v 9) (v 4) x)|]. split; [reflexivity|].
  intros []; eexists; (split; [vm_compute; reflexivity|]); split; vm_compute; reflexivity.
Qed.
Print Assumptions C113_selection_minus_refuted.

(** [0, 9] with the out-of-order [5, 2]: adding it does nothing, taking it away breaks the
    tree.  [0, 3] with [6, 2]: the other way round. *)
Example C113_ex :
  let s := tree_from_raw_interval (Closed 0 9) in let s2 := tree_from_raw_interval (Closed 0 3) in
  tree_wf s /\ tree_wf s2 /\ written (Closed 5 2) (Include 5) (Include 2) 5 2 /\ written (Closed 6 2) (Include 6) (Include 2) 6 2 /\
  ~ lt 5 2 /\ ~ lt 6 2 /\ no_bound_at s 5 /\ no_bound_at s 2 /\ no_bound_at s2 6 /\ no_bound_at s2 2 /\
  tree_contains true s 5 = Ok true /\ tree_union_in_place true s (Closed 5 2) = Ok s /\
  (exists s', tree_minus_in_place true s (Closed 5 2) = Ok s' /\ iter_collect true (tree_interval_iter s') = Panic) /\
  tree_contains true s2 6 = Ok false /\ tree_minus_in_place true s2 (Closed 6 2) = Ok s2 /\
  (exists s', tree_union_in_place true s2 (Closed 6 2) = Ok s' /\ iter_collect true (tree_interval_iter s') = Panic) /\
  tree_intersect_in_place true s (Closed 5 2) = Panic.
Proof.
  cbv zeta.
  assert (N : forall (l u x : Z), l <> x -> u <> x -> no_bound_at [TLower (Include l); TUpper (Include u)] x).
  { intros l u x H G t [<-|[<-|[]]]; cbn; split; congruence. }
  split; [repeat constructor|]. split; [repeat constructor|].
  split; [repeat split; auto|]. split; [repeat split; auto|]. split; [discriminate|]. split; [discriminate|].
  split; [now apply N|]. split; [now apply N|]. split; [now apply N|]. split; [now apply N|].
  split; [reflexivity|]. split; [reflexivity|]. split; [eexists; split; reflexivity|].
  split; [reflexivity|]. split; [reflexivity|]. split; [eexists; split; reflexivity|]. reflexivity.
Qed.

(** The Selection 0..99 with the Interval made from Closed(9, 2). *)
Example C113_selection_ex :
  let s := sel_from (interval_from_raw (Closed (v 0) (v 99))) in
  tree_wf s /\ lt (v 2) (v 9) /\ pred (v 9) = Some (v 8) /\ succ (v 2) = Some (v 3) /\ no_bound_at s (v 8) /\ no_bound_at s (v 3) /\
  sel_union_in_place true s (interval_from_raw (Closed (v 9) (v 2))) = Ok s /\
  exists s', sel_minus_in_place true s (interval_from_raw (Closed (v 9) (v 2))) = Ok s' /\
    iter_collect true (tree_interval_iter s') = Panic.
Proof.
  cbv zeta.
  assert (N : forall x : i8, no_bound_at (sel_from (interval_from_raw (Closed (v 0) (v 99)))) x <->
     cmp (v (-1)) x <> Eq /\ cmp (v 100) x <> Eq).
  { intros x. change (sel_from (interval_from_raw (Closed (v 0) (v 99)))) with [TLower (Exclude (v (-1))); TUpper (Exclude (v 100))].
    rewrite !cmp_eq. unfold no_bound_at. split.
    - intros H. split; intros E;
        [apply (proj2 (H _ (or_introl eq_refl)))|apply (proj2 (H _ (or_intror (or_introl eq_refl))))]; cbn [tine_into_inner]; now rewrite E.
    - intros [H G] t [<-|[<-|[]]]; cbn [tine_into_inner]; split; intros E; try discriminate; inversion E; contradiction. }
  split; [repeat constructor|]. repeat (split; [reflexivity|]).
  split; [apply N; split; discriminate|]. split; [apply N; split; discriminate|]. split; [vm_compute; reflexivity|].
  eexists. split; vm_compute; reflexivity.
Qed.
