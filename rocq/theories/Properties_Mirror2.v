(** * Whole-tree [minus] described exactly: C37; where it treats left and right
    alike: C100 *)
From Coq Require Import List Bool ZArith Lia Sorted.
From Verif Require Import Base OrdFacts Pos Ints MBound MRaw MNormalize MInterval MTine MBTree MTineTree MSelection
  Spec Spec_Tree Spec_Sel Spec_Key Spec_Mirror PRaw PRaw2 PTree PTree2 PTreeMinus PTree3 PTree4 PTree6 PTree7 PSel PSel2 PSel4 PKey PMirror PMirror2 PMirror3
  Instances Properties_Interval Properties_Tree Properties_Selection Properties_Mirror.
Import ListNotations.
Local Arguments cmp : simpl never.

(** ** The difference of trees, unless a point beside an interval is removed *)
Section Minus.
  Context {T : Type} {O : Ord T}.
  Implicit Types (s : TineTree T) (i j r : RawInterval T) (x y : T).

  (** Removing [i] from [s] does not break an interval: it is no point that an
      interval of [s] ends or starts at without including it. *)
  Definition clear_of s i : Prop := forall x, i = Point x -> rim s x = false.

  Lemma minus_clear dbg s i : wf s -> raw_wf i -> clear_of s i ->
    exists s', tree_minus_in_place dbg s i = Ok s' /\ wf s' /\
      forall p, den false s' p = true <->
        (den false s p = true /\ covers i p = false) \/ (exists x, p = At x /\ hole s x = true /\ ends_at i x).
  Proof.
    intros W Wi N. destruct (point_or i) as [[x ->]|NP]; [|now apply minus_one].
    destruct (minus_in_place_point dbg s x W (N x eq_refl)) as (s' & E & W' & D). exists s'. split; auto. split; auto.
    intros p. rewrite D, andb_true_iff, negb_true_iff. split; [auto|]. intros [K|(y & _ & K & Ey)]; auto. exfalso.
    assert (y = x) as ->. { destruct Ey as [(b & Eb & K')|(b & Eb & K')]; injection Eb as <-; simpl in K'; auto. }
    rewrite (hole_rim s x (N x eq_refl)) in K. discriminate.
  Qed.

  (** The next intervals find the tree at their ends as it was. *)
  Lemma clear_after s s1 i j : raw_wf i -> raw_wf j -> separated i j ->
    (forall p, den false s1 p = true <-> (den false s p = true /\ covers i p = false) \/ (exists x, p = At x /\ hole s x = true /\ ends_at i x)) ->
    clear_of s j -> clear_of s1 j.
  Proof.
    intros Wi Wj Sep H1 C x ->. specialize (C x eq_refl).
    assert (Ex : ends_at (Point x) x) by (left; exists (Include x); split; reflexivity).
    destruct (ends_after i _ x Wi Wj Sep Ex) as (A & B & Cl).
    assert (Ne : ~ ends_at i x).
    { intros K. destruct (separated_from i _ x Wi Wj Sep K) as [L _]. specialize (L x eq_refl). po. }
    assert (Cx : covers i (Lo x) = false) by (destruct (covers i (Lo x)); auto; now destruct (Ne (Cl eq_refl))).
    assert (D : forall p, (p = Lo x \/ p = At x \/ p = Hi x) -> den false s1 p = den false s p).
    { intros p Hp. apply eq_true_iff_eq. rewrite H1. assert (Cp : covers i p = false) by (destruct Hp as [->|[->| ->]]; auto). rewrite Cp.
      split; [|auto]. intros [[K _]|(y & -> & _ & K)]; auto. destruct Hp as [Hp|[Hp|Hp]]; try discriminate Hp. injection Hp as ->. contradiction. }
    unfold rim in *. rewrite !D by auto. exact C.
  Qed.

  Lemma minus_fold_clear dbg l : forall s, wf s -> Forall raw_wf l -> Forall (clear_of s) l -> StronglySorted separated l ->
    exists s', mfold (fun acc i => tree_minus_in_place dbg acc i) l s = Ok s' /\ wf s' /\
      forall p, den false s' p = true <->
        (den false s p = true /\ lcovers l p = false) \/
        (exists x i, p = At x /\ hole s x = true /\ In i l /\ ends_at i x).
  Proof.
    induction l as [|i l IH]; intros s W Wl NP SS.
    - exists s. split; auto. split; auto. intros p. simpl. split; [auto|]. intros [K|(x & i & _ & _ & [] & _)]. tauto.
    - inversion Wl as [|? ? Wi Wl']; subst. inversion NP as [|? ? NPi NPl]; subst. inversion SS as [|? ? SS' Si]; subst.
      rewrite Forall_forall in Si, Wl', NPl.
      destruct (minus_clear dbg s i W Wi NPi) as (s1 & E & W1 & H1).
      destruct (IH s1 W1) as (s' & E' & W' & H'); auto; [now apply Forall_forall| |].
      { apply Forall_forall. intros j Hj. apply (clear_after s s1 i j Wi); auto. }
      exists s'. cbn [mfold]. rewrite E. cbn [bind]. split; auto. split; auto. intros p. rewrite H', H1.
      assert (Hl : forall j x, In j l -> ends_at j x -> (hole s1 x = true <-> hole s x = true /\ ~ ends_at i x)).
      { intros j x Hj Ex. destruct (ends_after i j x Wi (Wl' j Hj) (Si j Hj) Ex) as (A & B & C).
        assert (D1 : den false s1 (Lo x) = true <-> den false s (Lo x) = true /\ covers i (Lo x) = false).
        { rewrite H1. split; [intros [K|(z & K & _)]; [auto|discriminate]|auto]. }
        assert (D2 : den false s1 (Hi x) = true <-> den false s (Hi x) = true).
        { rewrite H1, B. split; [intros [K|(z & K & _)]; [tauto|discriminate]|auto]. }
        assert (D3 : den false s1 (At x) = true <-> den false s (At x) = true \/ (hole s x = true /\ ends_at i x)).
        { rewrite H1, A. split.
          - intros [K|(z & K & K' & K'')]; [tauto|injection K as <-; auto].
          - intros [K|K]; [auto|right; exists x; tauto]. }
        rewrite !hole_iff in *. rewrite D1, D2.
        destruct (den false s1 (At x)) eqn:Y; destruct (den false s (At x)) eqn:Y'; try (intuition congruence).
        destruct (covers i (Lo x)) eqn:Cv; [|intuition congruence].
        specialize (C eq_refl). intuition congruence. }
      assert (Lc : lcovers (i :: l) p = covers i p || lcovers l p) by reflexivity. rewrite Lc, orb_false_iff.
      split.
      + intros [[[K1|(x & -> & K1 & K2)] K3]|(x & j & -> & K1 & K2 & K3)].
        * left. tauto.
        * right. exists x, i. simpl. auto.
        * right. exists x, j. apply (Hl j x K2 K3) in K1 as [K1 _]. simpl. auto.
      + intros [[K1 [K2 K3]]|(x & j & -> & K1 & [<-|K2] & K3)].
        * left. auto.
        * left. split; [right; eauto|].
          destruct (lcovers l (At x)) eqn:C; auto. apply lcovers_ex in C as (k & Hk & C).
          rewrite (ends_before i k x Wi (Wl' k Hk) (Si k Hk) K3) in C. discriminate.
        * destruct (den false s1 (At x)) eqn:D1.
          -- apply H1 in D1. left. split; [exact D1|].
             destruct D1 as [[D1 _]|(z & Ez & _ & Kz)]; [rewrite hole_iff in K1; destruct K1; congruence|]. injection Ez as <-.
             destruct (lcovers l (At x)) eqn:C; auto. apply lcovers_ex in C as (k & Hk & C).
             rewrite (ends_before i k x Wi (Wl' k Hk) (Si k Hk) Kz) in C. discriminate.
          -- right. exists x, j. split; auto. split; auto. apply (Hl j x K2 K3). split; auto.
             intros Kz. assert (den false s1 (At x) = true); [|congruence]. apply H1. right. eauto.
  Qed.

  Lemma tree_minus_clear dbg s o : wf s -> wf o -> Forall (clear_of s) (pieces None o) ->
    exists m, tree_minus dbg s o = Ok m /\ wf m /\
      forall p, den false m p = true <->
        (den false s p = true /\ den false o p = false) \/
        (exists x i, p = At x /\ hole s x = true /\ In i (pieces None o) /\ ends_at i x).
  Proof.
    intros W W' NP. destruct (minus_fold_clear dbg (pieces None o) s W (pieces_wf o None) NP) as (m & E & Wr & H).
    { destruct W' as [S C]. apply pieces_separated; auto. discriminate. }
    exists m. split; [unfold tree_minus; now rewrite tree_fold_pieces|]. split; auto. intros p. now rewrite H, pieces_den.
  Qed.

  Lemma clear_pieces s l : wf s -> (forall x, In (Point x) l -> ~ excluded_end (pieces None s) x) -> Forall (clear_of s) l.
  Proof.
    intros W N. apply Forall_forall. intros i Hi x ->. specialize (N x Hi). destruct (rim s x) eqn:E; auto.
    destruct N. now apply (rim_pieces s x W).
  Qed.

  (** For any two trees of which the second has no single point at an excluded
      end of an interval of the first: [minus] does not panic, leaves a tree,
      and what it contains is the difference and those points missing between
      two intervals of the first at which an interval of the second ends. *)
  Theorem C37_minus_tree_result dbg s o l l' : tree_wf s -> tree_wf o -> intervals_are dbg s l -> intervals_are dbg o l' ->
    (forall x, In (Point x) l' -> ~ excluded_end l x) ->
    exact dbg (tree_minus dbg s o) (fun x => (holds dbg s x /\ ~ holds dbg o x) \/ (pinhole l x /\ exists i, In i l' /\ ends_at i x)).
  Proof.
    intros W Wo D D' N. apply wf_tree_wf in W, Wo. apply intervals_pieces in D, D'; auto. subst l l'.
    destruct (tree_minus_clear dbg s o W Wo (clear_pieces s _ W N)) as (m & E & Wm & H).
    apply exact_of_den. exists m. split; auto. split; auto. intros x. rewrite H. unfold holds. rewrite !tree_contains_den by auto.
    unfold pinhole. rewrite <- (hole_pieces s x W). split.
    - intros [[A B]|(y & i & [= <-] & A & B & C)]; [left; split; congruence|right; split; eauto].
    - intros [[A B]|(A & i & B & C)]; [left; split; [congruence|destruct (den false o (At x)); congruence]|right; exists x, i; auto].
  Qed.
End Minus.
Print Assumptions C37_minus_tree_result.

(** When every value is the image of one, every position has a mirror image. *)
Section Onto.
  Context {T U : Type} {OT : Ord T} {OU : Ord U} (f : T -> U) (H : reverses f) (onto : forall y, exists x, y = f x).
  Notation ms := (tree_mirror f).

  Lemma mp_onto (p : pos U) : exists q, p = mp f q.
  Proof.
    destruct p as [|y|y|y|]; try (destruct (onto y) as [x ->]); [exists PInf|exists (Hi x)|exists (At x)|exists (Lo x)|exists NInf]; reflexivity.
  Qed.
  Lemma f_inj x y : f x = f y -> x = y.
  Proof. intros E. apply cmp_eq. rewrite <- (H y x), E. now apply cmp_eq. Qed.

  Lemma o_den (s : TineTree T) p : wf s -> den false (ms s) (mp f p) = den false s p.
  Proof. intros W. apply m_den; [exact H|now apply wf_asc|now destruct W]. Qed.
  Lemma o_hole (s : TineTree T) x : wf s -> hole (ms s) (f x) = hole s x.
  Proof.
    intros W. unfold hole. change (At (f x)) with (mp f (At x)). change (Lo (f x)) with (mp f (Hi x)). change (Hi (f x)) with (mp f (Lo x)).
    rewrite !o_den by auto. destruct (den false s (At x)), (den false s (Lo x)), (den false s (Hi x)); reflexivity.
  Qed.
  Lemma o_rim (s : TineTree T) x : wf s -> rim (ms s) (f x) = rim s x.
  Proof.
    intros W. unfold rim. change (At (f x)) with (mp f (At x)). change (Lo (f x)) with (mp f (Hi x)). change (Hi (f x)) with (mp f (Lo x)).
    rewrite !o_den by auto. now rewrite orb_comm.
  Qed.
  Lemma o_ends (i : RawInterval T) x : ends_at (raw_mirror f i) (f x) <-> ends_at i x.
  Proof.
    destruct i; unfold ends_at; simpl; split; (intros [(b & E & K)|(b & E & K)]; try discriminate E; injection E as <-; simpl in K; try contradiction;
      try apply f_inj in K; subst;
      first [left; eexists; split; [reflexivity|]; simpl; reflexivity|right; eexists; split; [reflexivity|]; simpl; reflexivity]).
  Qed.

  Lemma o_minus dbg (s o : TineTree T) : wf s -> wf o -> Forall (clear_of s) (pieces None o) ->
    tree_minus dbg (ms s) (ms o) = res_key ms (tree_minus dbg s o).
  Proof.
    intros W Wo N. pose proof (m_wf_tree f H s W) as W'. pose proof (m_wf_tree f H o Wo) as Wo'.
    assert (N' : Forall (clear_of (ms s)) (pieces None (ms o))).
    { rewrite (m_pieces f H o Wo). apply Forall_forall. intros j Hj. unfold raws_mirror in Hj. apply in_rev, in_map_iff in Hj.
      destruct Hj as (i & <- & Hi). rewrite Forall_forall in N. specialize (N i Hi). intros x E. destruct i; try discriminate E.
      injection E as <-. rewrite o_rim by auto. now apply N. }
    destruct (tree_minus_clear dbg s o W Wo N) as (m & -> & Wm & D). destruct (tree_minus_clear dbg (ms s) (ms o) W' Wo' N') as (m' & -> & Wm' & D').
    cbn [res_key]. f_equal. apply den_ext; [exact Wm'|now apply m_wf_tree|]. intros p. destruct (mp_onto p) as [q ->]. rewrite (o_den m q Wm).
    apply eq_true_iff_eq. rewrite D', D, !o_den by auto.
    assert (K : (exists x i, mp f q = At x /\ hole (ms s) x = true /\ In i (pieces None (ms o)) /\ ends_at i x) <->
                (exists x i, q = At x /\ hole s x = true /\ In i (pieces None o) /\ ends_at i x)); [|now rewrite K].
    rewrite (m_pieces f H o Wo). unfold raws_mirror. split.
    - intros (y & j & Eq & Hx & Hj & Ex). apply in_rev, in_map_iff in Hj. destruct Hj as (i & <- & Hi). destruct (onto y) as [x ->]. exists x, i.
      rewrite o_hole in Hx by auto. apply o_ends in Ex. destruct q; try discriminate Eq. injection Eq as Eq. apply f_inj in Eq. subst. auto.
    - intros (x & i & -> & Hx & Hi & Ex). exists (f x), (raw_mirror f i). split; [reflexivity|]. rewrite o_hole by auto.
      split; auto. split; [apply in_rev; rewrite rev_involutive; now apply in_map|now apply o_ends].
  Qed.
End Onto.

(** ** Trees *)
(** [minus] of two trees is symmetric under the same condition: the second has
    no single point at an excluded end of an interval of the first. *)
Theorem C100_minus_tree_partial {T U} {OT : Ord T} {OU : Ord U} (f : T -> U) : reverses f ->
  forall dbg s o l l', tree_wf s -> tree_wf o -> intervals_are dbg s l -> intervals_are dbg o l' ->
  (forall x, In (Point x) l' -> ~ excluded_end l x) ->
  tree_minus dbg (tree_mirror f s) (tree_mirror f o) = res_key (tree_mirror f) (tree_minus dbg s o).
Proof.
  intros H dbg s o l l' W Wo D D' N. apply wf_tree_wf in W, Wo. apply intervals_pieces in D, D'; auto. subst l l'.
  pose proof (clear_pieces s _ W N) as NP.
  (* through [Reverse T], of which [U] holds a copy *)
  set (g := fun y : Reverse T => f (reversed y)).
  assert (K : @ordered_by (Reverse T) U Reverse_Cmp _ g) by (intros [x] [y]; unfold g; cbn; symmetry; apply H).
  assert (B : forall b, bound_key g (bound_key reverse b) = bound_key f b) by now intros [].
  assert (M : forall t : TineTree T, tree_mirror f t = tree_key g (tree_mirror reverse t)).
  { intros t. unfold tree_mirror, tree_key. rewrite map_rev, map_map. f_equal. apply map_ext. intros [b|b|b]; simpl; now rewrite B. }
  rewrite (M s), (M o). change (tree_key g) with (map (tine_key g)) at 1 2. rewrite (@k_tree_minus _ _ Reverse_Cmp _ g K dbg).
  assert (R : @tree_minus _ Reverse_Cmp dbg (tree_mirror reverse s) (tree_mirror reverse o) = res_key (tree_mirror reverse) (tree_minus dbg s o)).
  { exact (@o_minus T (Reverse T) OT Reverse_Ord reverse (fun x y => eq_refl) (fun y => match y with reverse x => ex_intro _ x eq_refl end) dbg s o W Wo NP). }
  rewrite R. destruct (tree_minus dbg s o) as [m|]; cbn; auto. now rewrite M.
Qed.
Print Assumptions C100_minus_tree_partial.

(** ** Selections *)
(** In particular when the second Selection was built by unions, whatever the
    first. *)
Theorem C100_minus_unions_partial {T U} {OT : Ord T} {OU : Ord U} {FT : Finite T} {FU : Finite U} (f : T -> U) :
  reverses f -> finite_reverses f -> forall dbg p q s o, inputs false p -> no_intersect p -> run dbg p = Ok s ->
  inputs true q -> unions_only q -> run dbg q = Ok o ->
  (do s' <- run dbg (prog_mirror f p); do o' <- run dbg (prog_mirror f q); sel_minus dbg s' o') =
  res_key (tree_mirror f) (sel_minus dbg s o).
Proof.
  intros H HF dbg p q s o Ip Np Ep Iq Uq Eq. destruct (run_open dbg q o Iq Uq Eq) as [Wo Op].
  pose proof (run_wf dbg p s Ip Ep) as W.
  assert (Nq : no_intersect q) by (clear - Uq; induction q; simpl in *; try tauto).
  rewrite (m_run f H HF dbg p Ip Np), Ep, (m_run f H HF dbg q (inputs_weak q Iq) Nq), Eq. cbn [res_key bind]. unfold sel_minus.
  apply (C100_minus_tree_partial f H dbg s o (pieces None s) (pieces None o)); try now apply wf_tree_wf.
  - now apply pieces_drains.
  - now apply pieces_drains.
  - intros x Hx. pose proof (open_no_points o Wo Op) as N. rewrite Forall_forall in N. now destruct (N _ Hx x).
Qed.
Print Assumptions C100_minus_unions_partial.

(** Over i8, reversed by [!]: {1..5, 9} minus {3, 9} both ways round. *)
Example C100_minus_ex : let p := P_intervals [cl 1 5; pt 9] : prog i8 in let q := P_points [v 3; v 9] : prog i8 in
  inputs false p /\ no_intersect p /\ inputs true q /\ unions_only q /\
  exists s o r r', run true p = Ok s /\ run true q = Ok o /\ sel_minus true s o = Ok r /\
    (do s' <- run true (prog_mirror int_not p); do o' <- run true (prog_mirror int_not q); sel_minus true s' o') = Ok r' /\
    sel_intervals_are true r [cl 1 2; cl 4 5] /\ sel_intervals_are true r' [cl (-6) (-5); cl (-3) (-2)].
Proof.
  cbv zeta. split; [repeat constructor|]. split; [exact I|]. split; [exact I|]. split; [exact I|].
  eexists _, _, _, _. do 4 (split; [reflexivity|]). split; drain.
Qed.

(** [1, 4) U (4, 6] without {2} and [5, 6]: the points of the second are clear of
    the excluded ends of the first. *)
Example C37_minus_tree_ex :
  let s := [TLower (Include 1); TPoint (Exclude 4); TUpper (Include 6)]%Z in
  let o := [TPoint (Include 2); TLower (Include 4); TUpper (Include 6)]%Z in
  let l := [RightOpen 1 4; LeftOpen 4 6]%Z in let l' := [Point 2; Closed 4 6]%Z in
  tree_wf s /\ tree_wf o /\ intervals_are true s l /\ intervals_are true o l' /\
  (forall x, In (Point x) l' -> ~ excluded_end l x) /\
  tree_minus true s o = Ok [TLower (Include 1); TPoint (Exclude 2); TUpper (Include 4)]%Z /\
  pinhole l 4%Z /\ In (Closed 4 6)%Z l' /\ ends_at (Closed 4 6)%Z 4%Z /\
  tree_minus true (tree_mirror Z.opp s) (tree_mirror Z.opp o) = Ok [TLower (Include (-4)); TPoint (Exclude (-2)); TUpper (Include (-1))]%Z.
Proof.
  cbv zeta. split; [split; [repeat constructor|reflexivity]|]. split; [split; [repeat constructor|reflexivity]|].
  split; [repeat (eapply drains_cons; [reflexivity|]); eapply drains_nil; reflexivity|].
  split; [repeat (eapply drains_cons; [reflexivity|]); eapply drains_nil; reflexivity|].
  split.
  { intros x [[= <-]|[K|[]]]; [|discriminate K]. intros (i & [<-|[<-|[]]] & [K|K]); discriminate K. }
  split; [reflexivity|]. split; [exists (RightOpen 1 4)%Z, (LeftOpen 4 6)%Z; simpl; auto|].
  split; [simpl; auto|]. split; [left; exists (Include 4%Z); split; reflexivity|]. reflexivity.
Qed.
