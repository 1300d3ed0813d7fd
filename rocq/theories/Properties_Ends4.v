(** * What iteration from the back alone yields in a release build, exactly (C110)

    Without debug assertions [next_back()] never panics.  It hands out the
    intervals from the top until it comes across two that are one excluded
    point apart.  It then skips the lower one of these and hands out gaps
    instead of intervals, until it meets two such intervals again. *)
From Coq Require Import List Bool ZArith Lia Sorted Permutation.
From Verif Require Import Base OrdFacts Pos PFinite Ints MBound MRaw MNormalize MTine MBTree MTineTree MInterval MSelection
  Spec Spec_Tree Spec_Sel PRaw PRaw2 PNorm PIter PInterval PBTree PTree PTreeOps PTreeIsect PTree2 PTree3 PTree4 PTree5 PTree6 PTree7
  PSel PSel2 PSel3 PSel4 PSel5 Instances
  Properties_Interval Properties_Tree Properties_Tree2 Properties_Selection Properties_Selection4 PBoth Properties_Both Properties_Fused Properties_Exact
  PDebug Properties_Ends Properties_Ends2.
Import ListNotations.
Local Arguments cmp : simpl never.

(** ** Specification *)

Section Spec.
  Context {A B : Type}.
  (** [touching j i]: the interval [j] ends, and [i] begins, at the same excluded
      point.  [item i]: what is handed out for the interval [i].
      [gap k i]: what is handed out for what lies between [k] and [i].
      [rest h i]: what is handed out last, if [h] is the latest interval that
      another one touched, and [i] the lowest interval of all.
      [alone k]: [k] is a single point. *)
  Context (touching : A -> A -> bool) (alone : A -> bool) (item : A -> B) (gap : A -> A -> B) (rest : A -> A -> B).

  (** The list, last interval first.  [over = Some h]: the first interval of the
      list is passed over, because it touches [h] or one has been passed over
      before. *)
  Fixpoint with_gaps (over : option A) (l : list A) : list B :=
    match l with
    | [] => []
    | i :: l' =>
        match over with
        | None =>
            item i ::
              match l' with
              | [] => []
              | j :: _ => with_gaps (if touching j i then Some i else None) l'
              end
        | Some h =>
            match l' with
            | [] => [rest h i]
            | k :: l'' =>
                if touching k i then with_gaps None l'
                else gap k i :: (if alone k then with_gaps None l'' else with_gaps (Some h) l')
            end
        end
    end.
End Spec.

(** The bounds of the intervals, for the tree's own iterator. *)
Definition bound_above {T} (k : RawInterval T) : Bound T := match raw_upper_bound k with Some b => b | None => Infinite end.
Definition bound_below {T} (k : RawInterval T) : Bound T := match raw_lower_bound k with Some b => b | None => Infinite end.
Definition is_point {T} (k : RawInterval T) : bool := match k with Point _ => true | _ => false end.
Definition raw_with_gaps {T} {C : Cmp T} : option (RawInterval T) -> list (RawInterval T) -> list (RawInterval T) :=
  with_gaps touching is_point (fun i => i) (fun k i => raw_new (bound_above k) (bound_below i)) (fun h i => raw_new (bound_below h) (bound_below i)).

Section Back.
  Context {T : Type} {O : Ord T}.
  Implicit Types (t u w : Tine T) (s A : TineTree T) (it : Iter T).

  Lemma with_gaps_item (i : RawInterval T) l : raw_with_gaps None (i :: l) =
    i :: match l with [] => [] | j :: _ => raw_with_gaps (if touching j i then Some i else None) l end.
  Proof. reflexivity. Qed.
  Lemma with_gaps_over (h i k : RawInterval T) l : raw_with_gaps (Some h) (i :: k :: l) =
    if touching k i then raw_with_gaps None (k :: l)
    else raw_new (bound_above k) (bound_below i) :: (if is_point k then raw_with_gaps None l else raw_with_gaps (Some h) (k :: l)).
  Proof. reflexivity. Qed.

  (** The last interval of a tree that ends with an upper bound. *)
  Lemma last_interval A t e : wf ((A ++ [t]) ++ [TUpper e]) ->
    okt t = true /\ is_lower_bound t = true /\
    raw_lower_bound (raw_new (tine_into_inner t) e) = Some (tine_into_inner t) /\
    raw_upper_bound (raw_new (tine_into_inner t) e) = Some e /\
    ((exists x, t = TPoint (Exclude x) /\ wf (A ++ [TUpper (Exclude x)]) /\
        pieces None ((A ++ [t]) ++ [TUpper e]) = pieces None (A ++ [TUpper (Exclude x)]) ++ [raw_new (tine_into_inner t) e]) \/
     (exists d, t = TLower d /\ wf A /\ pieces None ((A ++ [t]) ++ [TUpper e]) = pieces None A ++ [raw_new (tine_into_inner t) e])).
  Proof.
    intros W. pose proof W as [S H]. apply chain_app in H as (c & H1 & H2). apply chain_cons in H2 as (K & U & H2).
    simpl in U. subst c. apply chain_app in H1 as (c & H1 & H3). apply chain_cons in H3 as (Kt & Ut & H3). simpl in H3. apply eqb_prop in H3.
    assert (S2 : srt (A ++ [t])) by now apply srt_app in S as [S _].
    assert (Lt : lt (loc t) (loc (TUpper e))).
    { destruct (wf_at _ (A ++ [t]) (TUpper e) [] W) as (_ & Fu & _); [reflexivity|]. apply Forall_app in Fu as [_ Fu]. now inversion Fu. }
    destruct (lower_of t (TUpper e)) as [Bl Bu]; auto. cbn [tine_into_inner] in Bl, Bu.
    split; auto. split; auto. split; auto. split; auto.
    destruct (is_point_exclude t) eqn:Pt.
    - left. destruct t as [|[|x|]|]; try discriminate. simpl in Ut. subst c. exists x. split; auto. split.
      + split.
        * apply srt_app in S2 as (S3 & _ & S4). apply srt_app. split; auto. split; [repeat constructor|].
          eapply Forall_impl; [|exact S4]. intros z Hz. inversion Hz; subst. now constructor.
        * apply (chain_join _ true); auto.
      + rewrite <- !app_assoc. cbn [app]. rewrite pieces_hole; [reflexivity|]. destruct W as [_ W]. rewrite <- app_assoc in W. exact W.
    - right. assert (Et : exists d', t = TLower d') by (destruct t as [d'|[]|]; simpl in *; try discriminate; eauto). destruct Et as [d ->].
      simpl in Ut. subst c. exists d. split; auto. split; [split; auto; now apply srt_app in S2 as [S2 _]|].
      rewrite <- !app_assoc. cbn [app]. rewrite pieces_app; auto. intros z Hz; discriminate.
  Qed.
  Lemma upper_last A e : wf (A ++ [TUpper e]) -> exists A' t, A = A' ++ [t].
  Proof.
    intros [_ H]. destruct (snoc_cases A) as [->|(A' & t & ->)]; eauto. apply chain_cons in H as (_ & H & _). discriminate.
  Qed.
  Lemma last_above A e : wf (A ++ [TUpper e]) -> exists l k, pieces None (A ++ [TUpper e]) = l ++ [k] /\ raw_upper_bound k = Some e /\ is_point k = false.
  Proof.
    intros W. destruct (upper_last _ _ W) as (A' & t & ->). pose proof (last_interval _ _ _ W) as (K & L & Bl & Bu & D).
    assert (Np : is_point (raw_new (tine_into_inner t) e) = false).
    { destruct (raw_new (tine_into_inner t) e) as [|z|? ?|? ?|? ?|? ?|?|?|?|?|] eqn:E; auto. exfalso. simpl in Bl, Bu. injection Bl as Bl. injection Bu as <-.
      destruct (wf_at _ (A' ++ [t]) (TUpper (Include z)) [] W) as (_ & Fu & _); [reflexivity|]. apply Forall_app in Fu as [_ Fu].
      inversion Fu as [|? ? Lt _]; subst. unfold loc in Lt. simpl in Lt.
      destruct t as [b|b|b]; simpl in *; subst; try discriminate; porder. }
    destruct D as [(x & -> & _ & E)|(d & -> & _ & E)]; rewrite E; eexists _, _; (split; [reflexivity|split; auto]).
  Qed.

  Lemma release_call A t e sl : iter_next_back false (back_state ((A ++ [t]) ++ [TUpper e]) sl) =
    Ok (Some (raw_new (tine_into_inner t) e), back_state A (if is_point_exclude t then Some t else sl)).
  Proof.
    unfold iter_next_back, back_state. cbn [saved_upper tine_iter saved_lower]. repeat (rewrite last_app_one || rewrite rest_back_app_one). reflexivity.
  Qed.
  Lemma release_over A u d sl : iter_next_back false (back_state ((A ++ [u]) ++ [TLower d]) sl) =
    Ok (Some (raw_new (tine_into_inner u) d), back_state A (if is_point_exclude u then Some u else sl)).
  Proof.
    unfold iter_next_back, back_state. cbn [saved_upper tine_iter saved_lower]. repeat (rewrite last_app_one || rewrite rest_back_app_one). reflexivity.
  Qed.

  Lemma release_exact n :
    (forall A sl, length A <= n -> wf A -> outcome (iter_next_back false) (back_state A sl) (raw_with_gaps None (rev (pieces None A))) true) /\
    (forall A e x h, length A <= n -> wf (A ++ [TUpper e]) -> raw_lower_bound h = Some (Exclude x) ->
      outcome (iter_next_back false) (back_state A (Some (TPoint (Exclude x)))) (raw_with_gaps (Some h) (rev (pieces None (A ++ [TUpper e])))) true).
  Proof.
    induction n as [|n [IH1 IH2]].
    { split.
      - intros A sl L _. destruct A; [|simpl in L; lia]. eapply outcome_end. reflexivity.
      - intros A e x h L W. destruct A; [|simpl in L; lia]. destruct (upper_last [] e W) as ([] & t & E); discriminate. }
    assert (P : forall A sl, length A <= S n -> wf A -> outcome (iter_next_back false) (back_state A sl) (raw_with_gaps None (rev (pieces None A))) true).
    { intros A sl Ln W. destruct (snoc_cases A) as [->|(A1 & u & ->)]; [eapply outcome_end; reflexivity|].
      rewrite app_length in Ln. simpl in Ln. destruct (is_upper_bound u) eqn:EU.
      - destruct (wf_at _ A1 u [] W) as (Ku & _ & _); [reflexivity|].
        assert (Eu : exists d, u = TUpper d).
        { pose proof W as [_ H]. apply chain_app in H as (c & H1 & H2). apply chain_cons in H2 as (K & U & H2). simpl in H2. apply eqb_prop in H2.
          destruct u as [|[]|d]; simpl in *; try discriminate; eauto. }
        destruct Eu as [d ->]. destruct (upper_last _ _ W) as (A2 & t & ->). rewrite app_length in Ln. simpl in Ln.
        pose proof (last_interval _ _ _ W) as (K & L & Bl & Bu & [(x & -> & W2 & E)|(d' & -> & W2 & E)]); rewrite E, rev_app_distr; cbn [rev app];
          rewrite with_gaps_item; (eapply outcome_cons; [apply release_call|]); cbn [is_point_exclude tine_into_inner] in *.
        + destruct (last_above _ _ W2) as (l & k & Ek & Uk & Nk). pose proof (IH2 A2 (Exclude x) x (raw_new (Exclude x) d) ltac:(clear - Ln; lia) W2 Bl) as D.
          rewrite Ek, rev_app_distr in *. cbn [rev app] in *. replace (touching k (raw_new (Exclude x) d)) with true; [exact D|].
          unfold touching. rewrite Uk, Bl. now rewrite eqb_self.
        + pose proof (IH1 A2 sl ltac:(clear - Ln; lia) W2) as D. destruct (ends (pieces None A2)) as [Ek|(l & k & Ek)]; rewrite Ek in *; [exact D|].
          rewrite rev_app_distr in *. cbn [rev app] in *. rewrite (last_upper A2 l k (TLower d') W2 Ek); auto.
          destruct (wf_at _ A2 (TLower d') [TUpper d] W) as (_ & Ft & _); [now rewrite <- app_assoc|exact Ft].
      - pose proof W as [S H]. apply chain_app in H as (c & H1 & H2). apply chain_cons in H2 as (K & U & H2). simpl in H2. apply eqb_prop in H2.
        assert (Eu : exists x, u = TPoint (Include x)) by (destruct u as [[]|[]|[]]; simpl in *; try discriminate; eauto). destruct Eu as [x ->].
        simpl in U. subst c. assert (W1 : wf A1) by (split; auto; now apply srt_app in S as [S _]).
        assert (Ep : pieces None (A1 ++ [TPoint (Include x)]) = pieces None A1 ++ [Point x]) by (rewrite pieces_app; auto; intros z Hz; discriminate).
        rewrite Ep, rev_app_distr. cbn [rev app]. rewrite with_gaps_item. eapply (outcome_cons _ _ (back_state A1 sl)).
        { unfold iter_next_back, back_state. cbn [saved_upper tine_iter saved_lower]. now rewrite last_app_one, rest_back_app_one. }
        pose proof (IH1 A1 sl ltac:(clear - Ln; lia) W1) as D. destruct (rev (pieces None A1)); [exact D|]. now rewrite no_touch_point. }
    split; [exact P|]. intros A e x h Ln W Bh. destruct (upper_last _ _ W) as (A2 & t & ->).
    pose proof (last_interval _ _ _ W) as (K & L & Bl & Bu & [(y & -> & W2 & E)|(d' & -> & W2 & E)]); rewrite E, rev_app_distr; cbn [rev app];
      cbn [tine_into_inner] in *.
    - destruct (last_above _ _ W2) as (l & k & Ek & Uk & Nk).
      pose proof (P (A2 ++ [TUpper (Exclude y)]) (Some (TPoint (Exclude x))) ltac:(rewrite app_length in *; exact Ln) W2) as D.
      rewrite Ek, rev_app_distr in *. cbn [rev app] in *. rewrite with_gaps_over. replace (touching k (raw_new (Exclude y) e)) with true.
      + eapply outcome_same; [|exact D]. symmetry. apply hole_as_upper.
      + unfold touching. rewrite Uk, Bl. now rewrite eqb_self.
    - rewrite app_length in Ln. simpl in Ln.
      assert (Ft : Forall (fun u => lt (loc u) (loc (TLower d'))) A2).
      { destruct (wf_at _ A2 (TLower d') [TUpper e] W) as (_ & Ft & _); [now rewrite <- app_assoc|exact Ft]. }
      assert (Bi : bound_below (raw_new d' e) = d') by (unfold bound_below; now rewrite Bl).
      destruct (snoc_cases A2) as [->|(A3 & u & ->)].
      + cbn. unfold bound_below at 1. rewrite Bh. fold (@bound_below T). rewrite Bi. eapply outcome_cons; [reflexivity|]. eapply outcome_end. reflexivity.
      + rewrite app_length in Ln. simpl in Ln. destruct (is_upper_bound u) eqn:EU.
        * assert (Eu : exists d, u = TUpper d).
          { pose proof W2 as [_ H]. apply chain_app in H as (c & H1 & H2). apply chain_cons in H2 as (Ku & U & H2). simpl in H2. apply eqb_prop in H2.
            destruct u as [|[]|d]; simpl in *; try discriminate; eauto. }
          destruct Eu as [d ->]. destruct (last_above _ _ W2) as (l & k & Ek & Uk & Nk).
          pose proof (IH2 A3 d x h ltac:(clear - Ln; lia) W2 Bh) as D. rewrite Ek, rev_app_distr in *. cbn [rev app] in *.
          rewrite with_gaps_over. rewrite (last_upper _ l k (TLower d') W2 Ek); auto. rewrite Nk.
          unfold bound_above at 1. rewrite Uk, Bi. eapply outcome_cons; [apply release_over|exact D].
        * pose proof W2 as [S H]. apply chain_app in H as (c & H1 & H2). apply chain_cons in H2 as (Ku & U & H2). simpl in H2. apply eqb_prop in H2.
          assert (Eu : exists x, u = TPoint (Include x)) by (destruct u as [[]|[]|[]]; simpl in *; try discriminate; eauto). destruct Eu as [z ->].
          simpl in U. subst c. assert (W3 : wf A3) by (split; auto; now apply srt_app in S as [S _]).
          assert (Ep : pieces None (A3 ++ [TPoint (Include z)]) = pieces None A3 ++ [Point z]) by (rewrite pieces_app; auto; intros q Hq; discriminate).
          rewrite Ep, rev_app_distr. cbn [rev app]. rewrite with_gaps_over.
          rewrite (last_upper _ (pieces None A3) (Point z) (TLower d') W2 Ep); auto. cbn [is_point].
          change (bound_above (Point z)) with (Include z). rewrite Bi. eapply outcome_cons; [apply release_over|].
          apply IH1; auto. clear - Ln; lia.
  Qed.

  (** Every tree, release build: what [next_back] yields when it is called again
      and again until it answers [None]; it does not panic. *)
  Theorem C110_tree_back s l r ended : tree_wf s -> intervals_are false s l ->
    (outcome (iter_next_back false) (tree_interval_iter s) r ended <-> r = raw_with_gaps None (rev l) /\ ended = true).
  Proof.
    intros W Hl. apply wf_tree_wf in W. rewrite (intervals_pieces false s l W Hl).
    pose proof (outcome_iff _ _ (_, true) (proj1 (release_exact (length s)) s None (le_n _) W)) as K. change (back_state s None) with (tree_interval_iter s) in K.
    rewrite K. split; [now intros [= <- <-]|now intros [-> ->]].
  Qed.
End Back.
Print Assumptions C110_tree_back.

(** ** Selections built by unions *)

Section SelSpec.
  Context {T : Type} {C : Cmp T} {F : FiniteOps T}.
  (** The values that have a missing value, or more than one, between them and
      [k] below and between them and [i] above. *)
  Definition amid (k i : Interval T) (x : T) : Prop :=
    (forall y, ipoints k y -> exists z, lt y z /\ lt z x) /\ (forall y, ipoints i y -> exists z, lt x z /\ lt z y).
  (** The values at or above the first of [h], if [i] holds the least value of
      the type; no values otherwise. *)
  Definition onwards (h i : Interval T) (x : T) : Prop := ipoints i MINIMUM /\ exists y, ipoints h y /\ le y x.
  (** The lower one of the two values between [k] and [i], if there are exactly
      two. *)
  Definition stray (k i : Interval T) (x : T) : Prop :=
    exists y z w, ipoints k y /\ succ y = Some x /\ succ x = Some z /\ succ z = Some w /\ ipoints i w.

  (** What the interval iterator hands out, as sets of values, and what the value
      iterator makes of each of these sets. *)
  Definition sets_with_gaps : list (Interval T) -> list (T -> Prop) :=
    with_gaps one_between (fun _ => false) ipoints amid onwards None.
  Definition values_with_gaps : list (Interval T) -> list (T -> Prop) :=
    with_gaps one_between (fun _ => false) ipoints (fun k i x => amid k i x \/ stray k i x) onwards None.
End SelSpec.

Section Sel.
  Context {T : Type} {O : Ord T} {F : Finite T}.
  Implicit Types (s : Selection T).

  Lemma with_gaps_rel {A A' B B'} (f : A -> A') (t : A -> A -> bool) (t' : A' -> A' -> bool) al it gp rs it' gp' rs' (Q : B -> B' -> Prop) (P : A -> Prop) (R : A -> A -> Prop) :
    (forall i, P i -> al i = false /\ Q (it i) (it' (f i))) ->
    (forall i j, P i -> P j -> R i j -> t' (f j) (f i) = t j i /\ (t j i = false -> Q (gp j i) (gp' (f j) (f i))) /\ Q (rs i j) (rs' (f i) (f j))) ->
    forall l o, Forall P l -> ForallOrdPairs R l -> (forall h, o = Some h -> P h /\ Forall (R h) l) ->
    Forall2 Q (with_gaps t al it gp rs o l) (with_gaps t' (fun _ => false) it' gp' rs' (option_map f o) (map f l)).
  Proof.
    intros H1 H2. induction l as [|i l IH]; intros o Pl Rl Ho; [constructor|].
    inversion Pl as [|? ? Pi Pl']; subst. inversion Rl as [|? ? Ri Rl']; subst. destruct (H1 i Pi) as [_ Qi].
    destruct o as [h|]; cbn [with_gaps map option_map].
    - destruct (Ho h eq_refl) as [Ph Rh]. inversion Rh as [|? ? Rhi Rh']; subst.
      destruct l as [|k l]; cbn [map]; [repeat constructor; now apply H2|].
      inversion Pl' as [|? ? Pk _]; subst. inversion Ri as [|? ? Rik _]; subst. destruct (H2 i k Pi Pk Rik) as (Et & Qg & _). rewrite Et.
      destruct (H1 k Pk) as [-> _]. destruct (t k i) eqn:Tk.
      + apply (IH None); auto. discriminate.
      + constructor; auto. apply (IH (Some h)); auto. intros ? [= <-]. auto.
    - constructor; auto. destruct l as [|j l]; cbn [map]; [constructor|].
      inversion Pl' as [|? ? Pj _]; subst. inversion Ri as [|? ? Rij _]; subst. destruct (H2 i j Pi Pj Rij) as (Et & _). rewrite Et.
      destruct (t j i); [apply (IH (Some i))|apply (IH None)]; auto; [|discriminate]. intros ? [= <-]. auto.
  Qed.

  (** Neighbouring intervals: their facing ends, and the values there. *)
  Lemma facing s k i : wf s -> open_cov (den false s) -> In k (pieces None s) -> In i (pieces None s) -> separated k i ->
    exists a b, raw_upper_bound k = Some (Exclude a) /\ raw_lower_bound i = Some (Exclude b) /\ le a b /\
      (exists y, pred a = Some y /\ raw_contains k y = true) /\ (exists z, succ b = Some z /\ raw_contains i z = true) /\
      (forall x, raw_contains k x = true -> lt x a) /\ (forall x, raw_contains i x = true -> lt b x).
  Proof.
    intros W Op Ik Ii Sep. destruct (open_excluded s k W Op Ik) as [_ Kk], (open_excluded s i W Op Ii) as [Ki _].
    destruct (piece_point s k W (open_gapless _ Op) Ik) as (pk & Hk), (piece_point s i W (open_gapless _ Op) Ii) as (pi & Hi).
    unfold separated in Sep. destruct (raw_upper_bound k) as [[a|a|]|] eqn:Uk; try contradiction; [now destruct (Kk a)|].
    destruct (raw_lower_bound i) as [[b|b|]|] eqn:Li; try contradiction; [now destruct (Ki b)|].
    exists a, b. split; auto. split; auto. split; auto.
    assert (X : forall x, raw_contains k x = true -> lt x a).
    { intros x Hx. clear - Hx Uk O. destruct k; simpl in *; try discriminate; injection Uk as ->; order. }
    assert (Y : forall x, raw_contains i x = true -> lt b x).
    { intros x Hx. clear - Hx Li O. destruct i; simpl in *; try discriminate; injection Li as ->; order. }
    split; [|split; [|auto]].
    - specialize (X pk Hk). destruct (pred a) as [y|] eqn:Ey; [|exfalso; clear - X Ey F; forder]. exists y. split; auto.
      assert (le pk y /\ lt y a) as [P1 P2] by (clear - X Ey F; split; forder).
      clear - Hk Uk P1 P2 O. destruct k; simpl in *; try discriminate; injection Uk as ->; order.
    - specialize (Y pi Hi). destruct (succ b) as [y|] eqn:Ey; [|exfalso; clear - Y Ey F; forder]. exists y. split; auto.
      assert (le y pi /\ lt b y) as [P1 P2] by (clear - Y Ey F; split; forder).
      clear - Hi Li P1 P2 O. destruct i; simpl in *; try discriminate; injection Li as ->; order.
  Qed.

  Lemma gap_amid s k i : wf s -> open_cov (den false s) -> In k (pieces None s) -> In i (pieces None s) -> separated k i -> touching k i = false ->
    exists a b, raw_new (bound_above k) (bound_below i) = Open a b /\ lt a b /\
      (forall x, amid (nrm k) (nrm i) x <-> lt a x /\ lt x b) /\
      (forall x, stray (nrm k) (nrm i) x <-> x = a /\ succ a = Some b).
  Proof.
    intros W Op Ik Ii Sep Tc. destruct (facing s k i W Op Ik Ii Sep) as (a & b & Uk & Li & Lab & (y & Ey & Ny) & (z & Ez & Nz) & X & Y).
    unfold touching in Tc. rewrite Uk, Li in Tc. assert (Hab : lt a b) by (clear - Tc Lab O; order).
    exists a, b. unfold bound_above, bound_below. rewrite Uk, Li. split.
    { simpl. unfold raw_open. clear - Hab O. destruct (cmp a b) eqn:E; auto; exfalso; order. }
    split; auto. apply nrm_points in Ny, Nz.
    assert (X' : forall x, ipoints (nrm k) x -> lt x a) by (intros x Hx; apply X; now apply nrm_points).
    assert (Y' : forall x, ipoints (nrm i) x -> lt b x) by (intros x Hx; apply Y; now apply nrm_points).
    split; intros x; split.
    - intros [A B]. destruct (A y Ny) as (u & U1 & U2), (B z Nz) as (w & W1 & W2). clear - Ey Ez U1 U2 W1 W2 F. split; forder.
    - intros [A B]. split; intros u Hu; [exists a; auto|exists b; auto].
    - intros (u & v1 & w & Hu & S1 & S2 & S3 & Hw). pose proof (X' u Hu) as X1. pose proof (Y' w Hw) as Y1.
      assert (x = a /\ v1 = b) as [-> ->]; [|auto].
      assert (Q1 : le x a) by (clear - X1 S1 F; forder). assert (Q2 : le b v1) by (clear - Y1 S3 F; forder).
      clear - Q1 Q2 S2 Hab F. split; forder.
    - intros [-> Sa]. exists y, b, z. repeat split; auto. clear - Ey F. forder.
  Qed.

  Lemma rest_onwards s h i : wf s -> open_cov (den false s) -> In h (pieces None s) -> In i (pieces None s) -> separated i h ->
    raw_wf (raw_new (bound_below h) (bound_below i)) /\
    (forall x, ipoints (nrm (raw_new (bound_below h) (bound_below i))) x <-> onwards (nrm h) (nrm i) x) /\
    solid (normalized (raw_new (bound_below h) (bound_below i))).
  Proof.
    intros W Op Ih Ii Sep. destruct (facing s i h W Op Ii Ih Sep) as (a & b & Uk & Li & Lab & _ & (z & Ez & Nz) & X & Y).
    destruct (open_excluded s i W Op Ii) as [Ki _]. destruct (piece_point s i W (open_gapless _ Op) Ii) as (pi & Hi).
    unfold bound_below at 1 3 5. rewrite Li.
    assert (On : forall x, (exists y, ipoints (nrm h) y /\ le y x) <-> lt b x).
    { intros x. split.
      - intros (y & Hy & L). apply (proj1 (nrm_points h y)) in Hy. apply Y in Hy. clear - Hy L O. order.
      - intros L. exists z. split; [now apply nrm_points|]. clear - L Ez F. forder. }
    destruct (piece_bounds s i W Ii) as (lo & up & L & U & H). unfold bound_below. rewrite L. specialize (X pi Hi).
    destruct lo as [c|c|]; [now destruct (Ki c)| |].
    - assert (Hc : lt c pi) by (clear - Hi L O; destruct i; simpl in *; try discriminate; injection L as ->; order).
      assert (E : raw_new (Exclude b) (Exclude c) = Empty).
      { simpl. unfold raw_open. assert (lt c b) by (clear - X Hc Lab O; order). clear - H0 O. destruct (cmp b c) eqn:E; auto; exfalso; order. }
      rewrite E. split; [exact I|]. split; [|exact I]. intros x. unfold onwards. split; [intros K; apply (proj1 (nrm_points Empty x)) in K; discriminate|].
      intros [K _]. exfalso. apply (proj1 (nrm_points i _)) in K. clear - K L F. destruct i; simpl in *; try discriminate; injection L as ->; forder.
    - cbn [raw_new]. split; [exact I|]. split.
      + intros x. unfold onwards. rewrite On, nrm_points. simpl. split; [intros K|intros [_ K]; clear - K O; order].
        split; [|clear - K O; order]. apply nrm_points. clear - Hi L F. destruct i; simpl in *; try discriminate; try (injection L as ->); try reflexivity; forder.
      + simpl. rewrite Ez. simpl. clear. forder.
  Qed.

  (** Release build: the intervals that come out at the back; there is no
      panic. *)
  Theorem C110_intervals_back dbg (p : prog T) s l : inputs true p -> unions_only p -> run dbg p = Ok s -> sel_intervals_are false s l ->
    exists r, (forall r' ended, outcome (sel_interval_next_back false) (sel_interval_iter s) r' ended <-> r' = r /\ ended = true) /\
      Forall2 (fun i P => forall x, ipoints i x <-> P x) r (sets_with_gaps (rev l)).
  Proof.
    intros H U E Hl. destruct (run_open dbg p s H U E) as [W Op]. apply sel_intervals_pieces in Hl; auto. subst l.
    pose proof (proj1 (release_exact (length s)) s None (le_n _) W) as D. apply outcome_sel in D.
    exists (map nrm (raw_with_gaps None (rev (pieces None s)))). split.
    { intros r' e. pose proof (outcome_iff _ _ (_, true) D) as K. change (back_state s None) with (sel_interval_iter s) in K. rewrite K.
      split; [now intros [= <- <-]|now intros [-> ->]]. }
    clear D. rewrite <- map_rev. unfold sets_with_gaps.
    assert (Q : Forall2 (fun r P => forall x, ipoints (nrm r) x <-> P x) (raw_with_gaps None (rev (pieces None s)))
      (with_gaps one_between (fun _ => false) ipoints amid onwards None (map nrm (rev (pieces None s))))).
    { apply (with_gaps_rel nrm _ _ _ _ _ _ _ _ _ _ (fun r => In r (pieces None s)) (fun i j => separated j i)).
      - intros i Hi. split; [|intros x; reflexivity]. pose proof (open_no_points s W Op) as N. rewrite Forall_forall in N. specialize (N i Hi).
        destruct i as [|z|? ?|? ?|? ?|? ?|?|?|?|?|]; auto. now destruct (N z).
      - intros i j Hi Hj Sep. split; [now apply (touching_between s)|]. split; [|now apply (rest_onwards s)].
        intros Tc x. destruct (gap_amid s j i W Op Hj Hi Sep Tc) as (a & b & -> & _ & A & _). rewrite A, nrm_points. simpl. clear. split; intros; order.
      - apply Forall_forall. intros r Hr. now apply in_rev.
      - apply FOP_rev. now apply pieces_sorted.
      - discriminate. }
    induction Q; constructor; auto.
  Qed.

  (** *** Values *)
  Definition descends (c : list T) (P : T -> Prop) : Prop := StronglySorted (fun a b => lt b a) c /\ forall x, In x c <-> P x.

  Lemma values_of_gaps dbg its rs : outcome (iter_next_back dbg) its rs true -> forall cur lc ls, drains interval_next_back cur lc ->
    Forall2 (fun r l => drains interval_next_back (nrm r) l) rs ls -> (forall A l B, ls = A ++ l :: B -> l = [] -> B = []) ->
    outcome (sel_next_back dbg) {| si_intervals := its; si_current := cur |} (lc ++ concat ls) true.
  Proof.
    intros D. remember true as e eqn:Ee. revert Ee. induction D as [its its' E|its E|its its' r rs e E D IH]; intros Ee cur lc ls Dc C Ne; try discriminate;
      induction Dc as [cur cur' Ec|cur cur' a lc Ec Dc IHc].
    1: inversion C; subst; eapply outcome_end; unfold sel_next_back; cbn [si_current si_intervals]; rewrite Ec; cbn [bind]; rewrite E; reflexivity.
    1: eapply outcome_cons; [unfold sel_next_back; cbn [si_current si_intervals]; rewrite Ec; reflexivity|apply IHc; auto].
    2: eapply outcome_cons; [unfold sel_next_back; cbn [si_current si_intervals]; rewrite Ec; reflexivity|apply IHc; auto].
    inversion C as [|? l ? ls' Dr C']; subst. inversion Dr as [? c2 Er|? c2 a l' Er Dr']; subst.
    - assert (ls' = []) by now apply (Ne [] [] ls'). subst ls'. eapply outcome_end. unfold sel_next_back; cbn [si_current si_intervals].
      rewrite Ec; cbn [bind]. rewrite E. cbn [bind]. unfold nrm in Er. rewrite Er. reflexivity.
    - cbn [concat app]. eapply outcome_cons.
      + unfold sel_next_back; cbn [si_current si_intervals]. rewrite Ec; cbn [bind]. rewrite E. cbn [bind]. unfold nrm in Er. rewrite Er. reflexivity.
      + apply IH; auto. intros A l0 B El. apply (Ne ((a :: l') :: A)). simpl. now rewrite El.
  Qed.

  Lemma solid_descends r : raw_wf r -> solid (normalized r) -> exists c, drains interval_next_back (nrm r) c /\ descends c (ipoints (nrm r)).
  Proof.
    intros _ S. rewrite <- nrm_raw in S. destruct (solid_lists _ S) as (l & L). exists (rev l). split; [now apply irep_drains_back; split|].
    destruct L as [Sl Hl]. split.
    - clear Hl. assert (K : ForallOrdPairs (fun i j => lt j i) (rev l)) by now apply FOP_rev. induction K; constructor; auto.
    - intros x. now rewrite <- in_rev.
  Qed.
  Lemma open_descends (a b : T) : lt a b -> exists c, drains interval_next_back (nrm (Open a b)) c /\
    descends c (fun x => lt a x /\ lt x b \/ x = a /\ succ a = Some b) /\ c <> [].
  Proof.
    intros Hab. destruct (succ a) as [a'|] eqn:Ea; [|exfalso; clear - Hab Ea F; forder].
    destruct (pred b) as [b'|] eqn:Eb; [|exfalso; clear - Hab Eb F; forder].
    assert (L : le a' b' \/ lt b' a') by (destruct (leb a' b') eqn:L; [left|right]; clear - L O; order). destruct L as [L|L].
    - assert (S : solid (normalized (Open a b))) by (simpl; now rewrite Ea, Eb).
      destruct (solid_descends (Open a b) Hab S) as (c & Dc & Sc & Hc). exists c. split; auto. split; [split; auto|].
      + intros x. rewrite Hc, nrm_points. simpl. assert (a' <> b) by (clear - L Eb F; intros ->; forder). split; [intros K; left; clear - K O; order|].
        intros [K|[_ [= K]]]; [clear - K O; order|now destruct H].
      + intros ->. apply (Hc a'). apply nrm_points. simpl. clear - L Ea Eb F. forder.
    - assert (a' = b /\ b' = a) as [-> ->] by (clear - L Ea Eb Hab F; split; forder).
      exists [a]. split; [|split; [split; [repeat constructor|]|discriminate]].
      + destruct (pointless_back (Open a b) b) as (c & Ec & Kc); [now exists a|]. rewrite Eb in Ec. injection Ec as <-.
        eapply drains_cons; [exact Kc|]. eapply drains_nil. reflexivity.
      + intros x. simpl. split; [intros [<-|[]]; auto|intros [K|[-> _]]; auto]. exfalso. clear - K Ea F. forder.
  Qed.

  (** Only the last set handed out can be one of the third kind. *)
  Lemma with_gaps_marks {A B} (t : A -> A -> bool) (it : A -> B) gp rs : forall l o,
    let L := with_gaps t (fun _ => false) (fun i => (it i, false)) (fun k i => (gp k i, false)) (fun h i => (rs h i, true)) o l in
    map fst L = with_gaps t (fun _ => false) it gp rs o l /\ forall X b Y, L = X ++ (b, true) :: Y -> Y = [].
  Proof.
    induction l as [|i l IH]; intros o; [split; [reflexivity|intros [|? ?] b Y; discriminate]|].
    assert (K : forall L b (M : list B), map fst L = M /\ (forall X c Y, L = X ++ (c, true) :: Y -> Y = []) ->
      map fst ((b, false) :: L) = b :: M /\ (forall X c Y, (b, false) :: L = X ++ (c, true) :: Y -> Y = [])).
    { intros L b M [<- H]. split; [reflexivity|]. intros [|? X] c Y [= Eb EL]. now apply (H X c). }
    destruct o as [h|]; cbn [with_gaps].
    - destruct l as [|k l]; [split; [reflexivity|]; intros [|? [|? ?]] b Y [=]; auto|].
      destruct (t k i); [apply (IH None)|]. apply K. apply (IH (Some h)).
    - apply K. destruct l as [|j l]; [split; [reflexivity|intros [|? ?] b Y; discriminate]|]. destruct (t j i); apply IH.
  Qed.

  (** Release build: the values that come out at the back. *)
  Theorem C110_values_back dbg (p : prog T) s l : inputs true p -> unions_only p -> run dbg p = Ok s -> sel_intervals_are false s l ->
    exists cs, (forall vs ended, outcome (sel_next_back false) (sel_iter s) vs ended <-> vs = concat cs /\ ended = true) /\
      Forall2 descends cs (values_with_gaps (rev l)).
  Proof.
    intros H U E Hl. destruct (run_open dbg p s H U E) as [W Op]. apply sel_intervals_pieces in Hl; auto. subst l.
    pose proof (proj1 (release_exact (length s)) s None (le_n _) W) as D.
    rewrite <- map_rev. unfold values_with_gaps.
    destruct (with_gaps_marks one_between ipoints (fun k i x => amid k i x \/ stray k i x) onwards (map nrm (rev (pieces None s))) None) as [<- Last].
    set (L := with_gaps _ _ _ _ _ _ _) in *.
    assert (Q : Forall2 (fun r P => exists c, drains interval_next_back (nrm r) c /\ descends c (fst P) /\ (snd P = false -> c <> []))
      (raw_with_gaps None (rev (pieces None s))) L).
    { apply (with_gaps_rel nrm _ _ _ _ _ _ _ _ _ _ (fun r => In r (pieces None s)) (fun i j => separated j i)).
      - intros i Hi. split.
        + pose proof (open_no_points s W Op) as N. rewrite Forall_forall in N. specialize (N i Hi).
          destruct i as [|z|? ?|? ?|? ?|? ?|?|?|?|?|]; auto. now destruct (N z).
        + destruct (solid_descends i) as (c & Dc & Cc); [now apply (piece_wf s)| |].
          * rewrite <- nrm_raw. now apply (piece_solid s); auto; apply open_gapless.
          * exists c. split; auto. split; [exact Cc|]. intros _ ->. destruct (piece_point s i W (open_gapless _ Op) Hi) as (z & Hz).
            apply (proj2 Cc z). now apply nrm_points.
      - intros i j Hi Hj Sep. split; [now apply (touching_between s)|]. split.
        + intros Tc. destruct (gap_amid s j i W Op Hj Hi Sep Tc) as (a & b & -> & Hab & A & S). destruct (open_descends a b Hab) as (c & Dc & [Sc Cc] & Nc).
          exists c. split; auto. split; auto. split; auto. intros x. cbn [fst]. now rewrite A, S, Cc.
        + destruct (rest_onwards s i j W Op Hi Hj Sep) as (Wf & A & So). destruct (solid_descends _ Wf So) as (c & Dc & Sc & Cc).
          exists c. split; auto. split; [|discriminate]. split; auto. intros x. cbn [fst]. now rewrite Cc.
      - apply Forall_forall. intros r Hr. now apply in_rev.
      - apply FOP_rev. now apply pieces_sorted.
      - discriminate. }
    assert (Cs : exists cs, Forall2 (fun r c => drains interval_next_back (nrm r) c) (raw_with_gaps None (rev (pieces None s))) cs /\
      Forall2 (fun c P => descends c (fst P) /\ (snd P = false -> c <> [])) cs L).
    { clear Last D. induction Q as [|r P rs L' (c & Dc & Cc) Q IH]; [exists []; split; constructor|]. destruct IH as (cs & I1 & I2). exists (c :: cs). split; constructor; auto. }
    destruct Cs as (cs & C1 & C2). exists cs. split.
    - assert (V : outcome (sel_next_back false) (sel_iter s) (concat cs) true).
      { apply (values_of_gaps false (back_state s None) _ D interval_empty []); auto; [eapply drains_nil; reflexivity|].
        intros A c B -> ->. apply Forall2_app_inv_l in C2 as (L1 & L2 & _ & C2 & EL). inversion C2 as [|? P ? L3 [_ Np] C3]; subst.
        destruct P as [P m]. destruct m; [|now destruct Np]. specialize (Last L1 P L3 EL). subst L3. now inversion C3. }
      intros vs e. split; [|intros [-> ->]; exact V]. intros V'. destruct (outcome_det _ _ _ _ V _ _ V') as [-> <-]. auto.
    - clear - C2. induction C2 as [|c P cs L [Cc _] C2 IH]; simpl; constructor; auto.
  Qed.
End Sel.
Print Assumptions C110_intervals_back.
Print Assumptions C110_values_back.

Local Notation one a := (mkInterval (Closed (v a) (v a))).
(** {1, 3}: 3 comes out, then the empty interval; the value iterator yields 3.
    {-128 .. 0, 4, 7, 9}: after 9 there come out the gap between 4 and 7 (no values; the value
    iterator makes 5 of it), the gap between 0 and 4 without its ends, and all
    that is not below 9. *)
Example C110_ex : let p := P_points [v 1; v 3] : prog i8 in let q := P_intervals [cl (-128) 0; cl 4 4; cl 7 7; cl 9 9] : prog i8 in
  inputs true p /\ unions_only p /\ (exists s, run true p = Ok s /\ sel_intervals_are false s [one 1; one 3] /\
    sets_with_gaps (rev [one 1; one 3]) = [ipoints (one 3); onwards (one 3) (one 1)] /\
    outcome (sel_interval_next_back false) (sel_interval_iter s) [one 3; interval_empty] true /\
    outcome (sel_next_back false) (sel_iter s) [v 3] true) /\
  inputs true q /\ unions_only q /\ (exists s, run true q = Ok s /\ sel_intervals_are false s [cl (-128) 0; one 4; one 7; one 9] /\
    sets_with_gaps (rev [cl (-128) 0; one 4; one 7; one 9]) =
      [ipoints (one 9); amid (one 4) (one 7); amid (cl (-128) 0) (one 4); onwards (one 9) (cl (-128) 0)] /\
    outcome (sel_interval_next_back false) (sel_interval_iter s) [one 9; mkInterval (Closed (v 6) (v 5)); one 2; cl 9 127] true /\
    exists vs, outcome (sel_next_back false) (sel_iter s) (v 9 :: v 5 :: v 2 :: v 127 :: vs) true).
Proof.
  cbv zeta. split; [exact I|]. split; [exact I|]. split; [|split; [repeat constructor|split; [exact I|]]].
  - eexists. split; [vm_compute; reflexivity|].
    split; [do 2 (eapply drains_cons; [vm_compute; reflexivity|]); eapply drains_nil; vm_compute; reflexivity|]. split; [reflexivity|].
    split; [do 2 (eapply outcome_cons; [vm_compute; reflexivity|]); eapply outcome_end; vm_compute; reflexivity|].
    eapply outcome_cons; [vm_compute; reflexivity|]. eapply outcome_end. vm_compute. reflexivity.
  - eexists. split; [vm_compute; reflexivity|].
    split; [do 4 (eapply drains_cons; [vm_compute; reflexivity|]); eapply drains_nil; vm_compute; reflexivity|]. split; [reflexivity|].
    split; [do 4 (eapply outcome_cons; [vm_compute; reflexivity|]); eapply outcome_end; vm_compute; reflexivity|].
    eexists. do 4 (eapply outcome_cons; [vm_compute; reflexivity|]). repeat (eapply outcome_cons; [vm_compute; reflexivity|]).
    eapply outcome_end. vm_compute. reflexivity.
Qed.
Example C110_tree_ex : let s := [TLower (Exclude 0); TUpper (Exclude 2); TPoint (Include 3); TLower (Exclude 4); TPoint (Exclude 6); TUpper (Exclude 8)]%Z in
  tree_wf s /\ intervals_are false s [Open 0 2; Point 3; Open 4 6; Open 6 8]%Z /\
  raw_with_gaps None (rev [Open 0 2; Point 3; Open 4 6; Open 6 8]%Z) = [Open 6 8; RightOpen 3 4; Open 0 2]%Z.
Proof.
  cbv zeta. split; [split; [repeat constructor|reflexivity]|].
  split; [|reflexivity]. do 4 (eapply drains_cons; [vm_compute; reflexivity|]). eapply drains_nil. vm_compute. reflexivity.
Qed.
