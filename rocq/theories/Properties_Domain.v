(** * Exact domains of correctness (C72 and up)

    Where a property of the first list is refuted by the code, these theorems
    say exactly on which inputs it holds, or exactly what is returned. *)
From Coq Require Import List Bool ZArith Lia Sorted Permutation.
From Verif Require Import Base OrdFacts Pos PFinite Ints MBound MRaw MNormalize MTine MBTree MTineTree MInterval MSelection
  Spec Spec_Tree Spec_Sel Spec_More Spec_Domain PRaw PRaw2 PNorm PIter PInterval PBTree PTree PTreeOps PTreeIsect PTree2 PTree3 PTree4 PTree5 PTree6 PTree7
  PSel PSel2 PSel3 PSel4 Instances Properties_Raw Properties_Parse Properties_Interval Properties_Tree Properties_Selection Properties_Tree2
  Properties_Selection2 Properties_Selection4 Properties_Both PDomain PDomain2.
Import ListNotations.
Local Open Scope Z_scope.
Local Arguments cmp : simpl never.

Section IntersectInPlace.
  Context {T : Type} {O : Ord T} {F : Finite T}.

  Lemma le_both (x y : T) : le x y -> le y x -> x = y.
  Proof. order. Qed.

  Lemma near_flags s a : open_cov (den false s) ->
    (den false s (Hi a) = true <-> inS s a \/ exists l, succ a = Some l /\ inS s l) /\
    (den false s (Lo a) = true <-> inS s a \/ exists l, pred a = Some l /\ inS s l).
  Proof.
    intros (A & B & _). rewrite A, B, !orb_true_iff. unfold inS. split; (split; (intros [K|K]; [auto|right])).
    - destruct (succ a); [eauto|discriminate].
    - destruct K as (l & -> & K). exact K.
    - destruct (pred a); [eauto|discriminate].
    - destruct K as (l & -> & K). exact K.
  Qed.

  Lemma low_flags s l : open_cov (den false s) -> forall b0 v c0,
    near_lower s (match pred l with Some a => Exclude a | None => Infinite end) = (b0, v, c0) ->
    (c0 = true <-> at_or_before (inS s) l) /\ (b0 = true <-> two_before (inS s) l) /\ (v = true -> c0 = true) /\ (pred l = None -> l = MINIMUM).
  Proof.
    intros Op b0 v c0. unfold at_or_before, two_before. destruct (pred l) as [a|] eqn:Ea; intros [= <- <- <-].
    - assert (Es : succ a = Some l) by (clear - Ea; forder). destruct (near_flags s a Op) as [K1 K2].
      split; [rewrite K1, Es; split; (intros [K|(z & E & K)]; [|injection E as <-]); eauto|]. split; [|split; [rewrite K1; auto|discriminate]].
      rewrite K2. unfold at_or_before. split; [intros K; exists a; auto|intros (z & [= <-] & K); auto].
    - apply pred_none in Ea. subst l. destruct Op as (_ & _ & C & _). rewrite C. unfold inS. split; [split; [auto|intros [K|(z & E & _)]; [auto|discriminate]]|].
      split; [split; [discriminate|intros (z & E & _); discriminate]|]. auto.
  Qed.
  Lemma high_flags s u : open_cov (den false s) -> forall c1 v b1,
    near_upper s (match succ u with Some b => Exclude b | None => Infinite end) = (c1, v, b1) ->
    (c1 = true <-> at_or_after (inS s) u) /\ (b1 = true <-> two_after (inS s) u) /\ (v = true -> c1 = true).
  Proof.
    intros Op c1 v b1. unfold at_or_after, two_after. destruct (succ u) as [b|] eqn:Eb; intros [= <- <- <-].
    - assert (Es : pred b = Some u) by (clear - Eb; forder). destruct (near_flags s b Op) as [K1 K2].
      split; [rewrite K2, Es; split; (intros [K|(z & E & K)]; [|injection E as <-]); eauto|]. split; [|rewrite K2; auto].
      rewrite K1. unfold at_or_after. split; [intros K; exists b; auto|intros (z & [= <-] & K); auto].
    - apply succ_none in Eb. subst u. destruct Op as (_ & _ & _ & C). rewrite C. unfold inS. split; [split; [auto|intros [K|(z & E & _)]; [auto|discriminate]]|].
      split; [split; [discriminate|intros (z & E & _); discriminate]|]. auto.
  Qed.

  Lemma fine_iff dbg s l u : open_cov (den false s) ->
    (isect_fine dbg s (match pred l with Some a => Exclude a | None => Infinite end) (match succ u with Some b => Exclude b | None => Infinite end) = true <->
     (at_or_before (inS s) l /\ at_or_after (inS s) u) \/
     (two_before (inS s) l /\ at_or_before (inS s) l /\ ~ at_or_after (inS s) u /\ ~ two_after (inS s) u) \/
     (~ two_before (inS s) l /\ ~ at_or_before (inS s) l /\ at_or_after (inS s) u /\ two_after (inS s) u)).
  Proof.
    intros Op. unfold isect_fine.
    destruct (near_lower s _) as [[b0 vl] c0] eqn:E1. destruct (near_upper s _) as [[c1 vu] b1] eqn:E2.
    destruct (low_flags s l Op _ _ _ E1) as (<- & <- & V1 & _). destruct (high_flags s u Op _ _ _ E2) as (<- & <- & V2). clear E1 E2.
    unfold isect_right. destruct (incl_b _), (incl_b _), b0, c0, c1, b1, vl, vu, dbg; simpl; try (specialize (V1 eq_refl); discriminate);
      try (specialize (V2 eq_refl); discriminate); intuition discriminate.
  Qed.

  (** C72. On a Selection built by unions [intersect_in_place] returns exactly
      the common values, as a well-formed tree, precisely in these cases: the
      Selection has a value at or next to both ends of the interval, or it runs
      across one end and stays clear of the other, or one side is trivial. *)
  Theorem C72_intersect_in_place_domain dbg (p : prog T) s i : inputs true p -> unions_only p -> run dbg p = Ok s -> reach true i ->
    ((exists s', sel_intersect_in_place dbg s i = Ok s' /\ tree_wf s' /\ sel_is dbg s' (fun x => member dbg s x /\ ipoints i x)) <->
     sel_intersect_domain (member dbg s) i).
  Proof.
    intros H U E R. destruct (run_open dbg p s H U E) as [W Op]. pose proof (reach_solid i R) as S.
    assert (Cv : forall x, covers (denormalized (interval_raw i)) (At x) = true <-> ipoints i x).
    { intros x. rewrite covers_At, denormalized_tight_contains by now apply solid_tight. reflexivity. }
    assert (Wf : raw_wf (denormalized (interval_raw i))) by (apply denormalized_tight_wf; now apply solid_tight).
    assert (Dom : sel_intersect_domain (member dbg s) i <-> sel_intersect_domain (inS s) i).
    { assert (M : forall x, member dbg s x <-> inS s x) by (intros; now apply member_in).
      assert (K : forall P Q : T -> Prop, (forall x, P x <-> Q x) -> sel_intersect_domain P i -> sel_intersect_domain Q i).
      { intros P Q PQ. unfold sel_intersect_domain, two_before, two_after, at_or_before, at_or_after. intros [D|[D|[D|(l & u & Hl & Hu & D)]]].
        - left. intros x Hx. now apply (D x), PQ.
        - auto.
        - auto.
        - right; right; right. exists l, u. split; auto. split; auto. clear - PQ D.
          assert (E1 : forall (o : option T), (exists a, o = Some a /\ P a) <-> (exists a, o = Some a /\ Q a)).
          { intros o. split; intros (a & Ea & Ha); exists a; (split; [auto|now apply PQ]). }
          assert (E2 : forall (o : option T) (f : T -> option T), (exists a, o = Some a /\ (P a \/ exists b, f a = Some b /\ P b)) <->
            (exists a, o = Some a /\ (Q a \/ exists b, f a = Some b /\ Q b))).
          { intros o f. split; intros (a & Ea & Ha); exists a; (split; [auto|]); (destruct Ha as [Ha|Ha]; [left; now apply PQ|right; now apply E1]). }
          rewrite !E1, !PQ, !(E2 _ pred), !(E2 _ succ) in D. exact D. }
      split; apply K; intros x; rewrite M; reflexivity. }
    rewrite Dom. clear Dom.
    assert (Rt : (exists s', sel_intersect_in_place dbg s i = Ok s' /\ tree_wf s' /\ sel_is dbg s' (fun x => member dbg s x /\ ipoints i x)) <->
      (exists s', tree_intersect_in_place dbg s (denormalized (interval_raw i)) = Ok s' /\ wf s' /\
         forall x, den false s' (At x) = den false s (At x) && covers (denormalized (interval_raw i)) (At x))).
    { unfold sel_intersect_in_place. split; intros (s' & E' & W' & D); exists s'; (split; [exact E'|]); (split; [now apply wf_tree_wf|]).
      - intros x. apply wf_tree_wf in W'. destruct (D x) as (b & Eb & K). unfold sel_contains in Eb. rewrite tree_contains_den in Eb by auto.
        injection Eb as Eb. apply eq_true_iff_eq. rewrite Eb, K, member_in, andb_true_iff, Cv by auto. reflexivity.
      - intros x. exists (den false s' (At x)). unfold sel_contains. rewrite tree_contains_den by auto. split; auto.
        rewrite D, member_in, andb_true_iff, Cv by auto. reflexivity. }
    rewrite Rt. clear Rt. split.
    - intros X. destruct s as [|t s0]; [left; intros x K; discriminate|].
      destruct (reach_solid_cases i S) as [Ei|(l & u & Hl & Hu & Ei)].
      { right; left. intros x Hx. apply Cv in Hx. rewrite Ei in Hx. discriminate. }
      destruct (pred l) as [a|] eqn:Ea, (succ u) as [b|] eqn:Eb; [| | |right; right; left; intros x; apply Cv; rewrite Ei; reflexivity];
        right; right; right; exists l, u; (split; [exact Hl|]); (split; [exact Hu|]); apply (fine_iff dbg); auto; rewrite Ea, Eb;
        (eapply (isect_points_fine dbg _ _ _ _ l); [exact W|discriminate|exact Wf|rewrite Ei; exact I|rewrite Ei; reflexivity|rewrite Ei; reflexivity|discriminate|discriminate| |exact X];
         rewrite <- covers_At; apply Cv, Hl).
    - intros D.
      assert (K : exists s', tree_intersect_in_place dbg s (denormalized (interval_raw i)) = Ok s' /\ wf s' /\
              forall p, den false s' p = den false s p && covers (denormalized (interval_raw i)) p).
      { destruct s as [|t s0].
        { rewrite isect_in_place_empty. exists []. split; [reflexivity|]. split; [apply new_wf|]. intros q. reflexivity. }
        destruct (reach_solid_cases i S) as [Ei|(l & u & Hl & Hu & Ei)].
        { rewrite Ei. apply isect_in_place_easy; [exact W|simpl; tauto]. }
        assert (Fine : (pred l = None /\ succ u = None) \/ isect_fine dbg (t :: s0) (match pred l with Some a => Exclude a | None => Infinite end) (match succ u with Some b => Exclude b | None => Infinite end) = true).
        { destruct D as [D|[D|[D|(l' & u' & Hl' & Hu' & D)]]].
          - exfalso. assert (Ne : t :: s0 <> []) by discriminate. apply Ne. apply (open_canonical (t :: s0) []); auto using new_wf.
            + repeat split; intros; simpl; auto; first [now destruct (succ x)|now destruct (pred x)].
            + intros x. simpl den at 2. apply not_true_is_false. apply (D x).
          - exfalso. apply (D l), Hl.
          - left. split.
            + assert (l = MINIMUM). { destruct Hl as [_ Hl]. specialize (Hl MINIMUM (D MINIMUM)). pose proof (min_le l). apply le_both; auto. }
              subst l. destruct (pred MINIMUM) as [a|] eqn:Ea; auto. exfalso. apply pred_some in Ea as [Ea _]. pose proof (min_le a) as Ma. revert Ea Ma. generalize (@MINIMUM T _). clear. order.
            + assert (u = MAXIMUM). { destruct Hu as [_ Hu]. specialize (Hu MAXIMUM (D MAXIMUM)). pose proof (max_ge u). apply le_both; auto. }
              subst u. destruct (succ MAXIMUM) as [a|] eqn:Ea; auto. exfalso. apply succ_some in Ea as [Ea _]. pose proof (max_ge a) as Ma. revert Ea Ma. generalize (@MAXIMUM T _). clear. order.
          - right. apply fine_iff; auto.
            assert (l' = l) as <- by (destruct Hl as [L1 L2], Hl' as [L3 L4]; apply le_both; auto).
            assert (u' = u) as <- by (destruct Hu as [L1 L2], Hu' as [L3 L4]; apply le_both; auto). exact D. }
        rewrite Ei in *.
        destruct Fine as [[Ea Eb]|Fine].
        { rewrite Ea, Eb. apply isect_in_place_easy; [exact W|simpl; tauto]. }
        destruct (pred l) as [a|] eqn:Ea, (succ u) as [b|] eqn:Eb; try (apply isect_in_place_easy; [exact W|simpl; tauto]);
        (eapply isect_in_place_iff; [exact W|discriminate|exact Wf|exact I|reflexivity|reflexivity|exact Fine]). }
      destruct K as (s' & E' & W' & Pt). exists s'. split; auto.
  Qed.
End IntersectInPlace.
Print Assumptions C72_intersect_in_place_domain.

(** Both branches: a Selection touching both ends, one crossing one end and
    clear of the other; and two cases outside the domain. *)
Example C72_ex :
  (exists s, run true (P_points [v 1; v 4; v 9]) = Ok s /\ inputs true (P_points [v 1; v 4; v 9]) /\ unions_only (P_points [v 1; v 4; v 9]) /\
     (exists r, sel_intersect_in_place true s (cl 2 8) = Ok r /\ sel_contains true r (v 4) = Ok true /\ sel_contains true r (v 9) = Ok false) /\
     sel_intersect_in_place true s (cl 3 6) = Panic) /\
  (exists s r, run true (P_from (cl 0 3)) = Ok s /\ sel_intersect_in_place true s (cl 2 9) = Ok r /\
     sel_contains true r (v 2) = Ok true /\ sel_contains true r (v 1) = Ok false /\ sel_contains true r (v 9) = Ok false) /\
  sel_intersect_domain (fun x : i8 => In x [v 1; v 4; v 9]) (cl 2 8).
Proof.
  split; [|split].
  - eexists. split; [reflexivity|]. split; [constructor|]. split; [constructor|]. split; [|reflexivity].
    eexists. split; [reflexivity|]. split; reflexivity.
  - do 2 eexists. split; [reflexivity|]. repeat split.
  - right; right; right. exists (v 2), (v 8).
    assert (X : least (ipoints (cl 2 8 : Interval i8)) (v 2) /\ greatest (ipoints (cl 2 8 : Interval i8)) (v 8)) by (apply bounds_extremes; [reflexivity|reflexivity|discriminate]). destruct X as [L G]. split; auto. split; auto. left.
    split; [right; exists (v 1); split; [reflexivity|simpl; auto]|right; exists (v 9); split; [reflexivity|simpl; auto]].
Qed.

(** ** C73: the exact domain of the intersection of two trees *)
Section TreeIntersect.
  Context {T : Type} {O : Ord T}.

  Lemma walk_right dbg (a b : TineTree T) : tree_wf a -> tree_wf b ->
    (forall i j, In i (pieces None a) -> In j (pieces None b) -> raw_intersects i j = true ->
       visited (fun i j => raw_intersects i j = true) (pieces None a) (pieces None b) i j) ->
    exact dbg (tree_intersect dbg a b) (fun x => holds dbg a x /\ holds dbg b x).
  Proof.
    intros Wa Wb V. assert (Wa' := Wa). assert (Wb' := Wb). apply wf_tree_wf in Wa', Wb'.
    apply (C38_intersect_iff_partial dbg a b (pieces None a) (pieces None b)); auto; try (now apply pieces_drains).
    intros i j Hi Hj M. apply walked_visited. exists i, j. split; auto. apply V; auto. unfold raw_intersects. now rewrite M.
  Qed.

  (** On every ordered type, enough that the intervals come in step. *)
  Theorem C73_tree_intersect_enough dbg (a b : TineTree T) A B : tree_wf a -> tree_wf b -> intervals_are dbg a A -> intervals_are dbg b B ->
    in_step A B -> exact dbg (tree_intersect dbg a b) (fun x => holds dbg a x /\ holds dbg b x).
  Proof.
    intros Wa Wb HA HB S. assert (Wa' := Wa). assert (Wb' := Wb). apply wf_tree_wf in Wa', Wb'. apply intervals_pieces in HA, HB; auto. subst.
    apply walk_right; auto. apply walk_complete; auto using pieces_nodup.
  Qed.

  (** On dense types without end points that is also needed. *)
  Theorem C73_tree_intersect_domain dbg (a b : TineTree T) A B : dense T -> unbounded T -> inhabited T ->
    tree_wf a -> tree_wf b -> intervals_are dbg a A -> intervals_are dbg b B ->
    (exact dbg (tree_intersect dbg a b) (fun x => holds dbg a x /\ holds dbg b x) <-> in_step A B).
  Proof.
    intros D U N Wa Wb HA HB. split; [|now apply C73_tree_intersect_enough].
    intros X. pose proof (proj2 (C38_intersect_iff_partial dbg a b A B Wa Wb HA HB) D U N X) as V.
    apply wf_tree_wf in Wa, Wb. apply intervals_pieces in HA, HB; auto. subst. apply walk_complete; auto using pieces_nodup.
    intros i j Hi Hj M. assert (E : raw_is_empty (raw_intersect i j) = false) by (unfold raw_intersects in M; now destruct (raw_is_empty _)).
    specialize (V i j Hi Hj E). apply walked_visited in V as (i' & j' & V & Eq).
    destruct (proj1 (meets_covers i j) M) as (p & C1 & C2).
    assert (C : covers (raw_intersect i j) p = true) by (now rewrite raw_intersect_covers, C1, C2).
    rewrite Eq, raw_intersect_covers in C. apply andb_true_iff in C as [C1' C2']. destruct (visited_in _ _ _ _ _ V) as (Hi' & Hj' & _).
    rewrite (piece_unique a i i' p), (piece_unique b j j' p) by auto. exact V.
  Qed.
End TreeIntersect.
Print Assumptions C73_tree_intersect_enough.
Print Assumptions C73_tree_intersect_domain.
(** [0,1] then (3,5) against the misses-first list is in step; the tree against
    itself is not. *)
Example C73_ex : in_step [Closed 0 1; Open 3 5] [Point 2; Closed 4 7] /\ ~ in_step [Closed 0 1; Open 3 5] [Closed 0 1; Open 3 5].
Proof.
  split.
  - intros A1 i A2 B1 j B2 EA EB.
    destruct A1 as [|a1 [|a2 [|a3 A1]]]; inversion EA; subst; destruct B1 as [|b1 [|b2 [|b3 B1]]]; inversion EB; subst; try discriminate.
    intros _. split; [|reflexivity]. intros i' [<-|[<-|[]]]; [discriminate|reflexivity].
  - intros H. destruct (H [Closed 0 1] (Open 3 5) [] [Closed 0 1] (Open 3 5) [] eq_refl eq_refl eq_refl) as [_ K]. discriminate.
Qed.

(** ** C74, C75: Selection::intersect and intersects *)
Section SelIntersect.
  Context {T : Type} {O : Ord T} {F : Finite T}.

  Lemma sel_pieces_solid dbg (p : prog T) s A : inputs true p -> unions_only p -> run dbg p = Ok s -> sel_intervals_are dbg s A ->
    Forall (fun i => solid (interval_raw i)) A /\ (forall x, member dbg s x <-> exists i, In i A /\ ipoints i x) /\
    (forall i i' x, In i A -> In i' A -> ipoints i x -> ipoints i' x -> i = i').
  Proof.
    intros H U E HA. destruct (run_open dbg p s H U E) as [W Op]. apply sel_intervals_pieces in HA; auto. subst A. split; [|split].
    - apply Forall_forall. intros i Hi. apply in_map_iff in Hi as (r & <- & Hr). apply (piece_solid s); auto. now apply open_gapless.
    - intros x. rewrite member_in by auto. unfold inS. rewrite <- pieces_den, lcovers_ex by auto. split.
      + intros (r & Hr & Hx). exists (nrm r). split; [now apply in_map|]. apply nrm_points. now rewrite <- covers_At.
      + intros (i & Hi & Hx). apply in_map_iff in Hi as (r & <- & Hr). exists r. split; auto. rewrite covers_At. now apply nrm_points.
    - intros i i' x Hi Hi' Hx Hx'. apply in_map_iff in Hi as (r & <- & Hr), Hi' as (r' & <- & Hr'). f_equal.
      apply (piece_unique s r r' (At x)); auto; rewrite covers_At; now apply nrm_points.
  Qed.

  (** C74. What [intersect] returns for Selections built by unions ... *)
  Theorem C74_intersect_exact dbg (p q : prog T) a b A B :
    inputs true p -> unions_only p -> run dbg p = Ok a -> inputs true q -> unions_only q -> run dbg q = Ok b ->
    sel_intervals_are dbg a A -> sel_intervals_are dbg b B ->
    exists r, sel_intersect dbg a b = Ok r /\
      sel_is dbg r (fun x => exists i j, visited touching A B i j /\ ipoints i x /\ ipoints j x).
  Proof.
    intros Hp Up Ep Hq Uq Eq HA HB.
    destruct (sel_pieces_solid dbg p a A Hp Up Ep HA) as (SA & _), (sel_pieces_solid dbg q b B Hq Uq Eq HB) as (SB & _).
    destruct (C45_intersect_result_partial dbg p q a b A B Hp Up Ep Hq Uq Eq HA HB) as (r & E & R & _).
    exists r. split; auto. intros x. destruct (R x) as (c & Ec & Hc). exists c. split; auto. rewrite Hc. clear - SA SB.
    assert (Pt : forall k, In k A \/ In k B -> raw_contains (dn k) x = true <-> ipoints k x).
    { intros k Hk. rewrite Forall_forall in SA, SB. unfold dn. rewrite denormalized_tight_contains; [reflexivity|]. apply solid_tight. destruct Hk; auto. }
    unfold some_contains. split.
    - intros (k & Hk & Hx). apply walked_visited in Hk as (r & r' & V & ->). apply visited_dn in V as (i & j & V & -> & ->); auto.
      rewrite raw_intersect_contains, andb_true_iff in Hx. destruct (visited_in _ _ _ _ _ V) as (Hi & Hj & _).
      exists i, j. rewrite <- !Pt by auto. tauto.
    - intros (i & j & V & Hi & Hj). destruct (visited_in _ _ _ _ _ V) as (Ii & Ij & _). exists (raw_intersect (dn i) (dn j)). split.
      + apply walked_visited. exists (dn i), (dn j). split; auto. apply visited_dn; eauto.
      + rewrite raw_intersect_contains, andb_true_iff, !Pt by auto. auto.
  Qed.

  (** ... and so when it is right: each pair of intervals with a common value is
      among those it looks at. *)
  Theorem C74_intersect_domain dbg (p q : prog T) a b A B :
    inputs true p -> unions_only p -> run dbg p = Ok a -> inputs true q -> unions_only q -> run dbg q = Ok b ->
    sel_intervals_are dbg a A -> sel_intervals_are dbg b B ->
    ((exists r, sel_intersect dbg a b = Ok r /\ sel_is dbg r (fun x => member dbg a x /\ member dbg b x)) <->
     forall i j x, In i A -> In j B -> ipoints i x -> ipoints j x -> visited touching A B i j).
  Proof.
    intros Hp Up Ep Hq Uq Eq HA HB. destruct (C74_intersect_exact dbg p q a b A B Hp Up Ep Hq Uq Eq HA HB) as (r & E & R).
    destruct (sel_pieces_solid dbg p a A Hp Up Ep HA) as (_ & MA & UA), (sel_pieces_solid dbg q b B Hq Uq Eq HB) as (_ & MB & UB). split.
    - intros (r' & E' & R') i j x Hi Hj Xi Xj. assert (r' = r) as -> by congruence.
      destruct (R x) as (c & Ec & Hc), (R' x) as (c' & Ec' & Hc'). assert (c' = c) as -> by congruence.
      assert (C : c = true) by (apply Hc'; rewrite MA, MB; split; eauto). apply Hc in C as (i' & j' & V & Xi' & Xj').
      destruct (visited_in _ _ _ _ _ V) as (Hi' & Hj' & _). rewrite (UA i i' x), (UB j j' x) by auto. exact V.
    - intros V. exists r. split; auto. intros x. destruct (R x) as (c & Ec & Hc). exists c. split; auto. rewrite Hc, MA, MB. split.
      + intros (i & j & K & Xi & Xj). destruct (visited_in _ _ _ _ _ K) as (Hi & Hj & _). split; eauto.
      + intros ((i & Hi & Xi) & (j & Hj & Xj)). exists i, j. split; eauto.
  Qed.

  (** C75. [intersects] answers whether, at some position [k], the [k]-th
      intervals of the two Selections have equal or neighbouring values. *)
  Theorem C75_intersects_exact dbg (p q : prog T) a b A B :
    inputs true p -> unions_only p -> run dbg p = Ok a -> inputs true q -> unions_only q -> run dbg q = Ok b ->
    sel_intervals_are dbg a A -> sel_intervals_are dbg b B ->
    exists c, sel_intersects dbg a b = Ok c /\
      (c = true <-> exists k i j, nth_error A k = Some i /\ nth_error B k = Some j /\ touching i j).
  Proof.
    intros Hp Up Ep Hq Uq Eq HA HB.
    destruct (sel_pieces_solid dbg p a A Hp Up Ep HA) as (SA & _), (sel_pieces_solid dbg q b B Hq Uq Eq HB) as (SB & _).
    destruct (C45_intersect_result_partial dbg p q a b A B Hp Up Ep Hq Uq Eq HA HB) as (r & E & _ & I).
    eexists. split; [exact I|]. rewrite <- (visited_diagonal touching A B).
    - transitivity (exists k, In k (walked (map dn A) (map dn B))).
      + destruct (walked (map dn A) (map dn B)) as [|k l]; split; try discriminate; auto; [intros (k & [])|intros _; exists k; now left].
      + split.
        * intros (k & Hk). apply walked_visited in Hk as (r1 & r2 & V & _). apply visited_dn in V as (i & j & V & _); eauto.
        * intros (i & j & V). exists (raw_intersect (dn i) (dn j)). apply walked_visited. exists (dn i), (dn j). split; auto. apply visited_dn; eauto.
    - intros i j Hi Hj. rewrite Forall_forall in SA, SB. rewrite <- touching_meets by auto. destruct (raw_intersects (dn i) (dn j)); [now left|right; discriminate].
  Qed.
End SelIntersect.
Print Assumptions C74_intersect_exact.
Print Assumptions C74_intersect_domain.
Print Assumptions C75_intersects_exact.
(** {2, 7, 8} and {5, 7}: the pairs looked at are ({2},{5}), ({7,8},{7}), so the
    result is right; and the second pair has a common value, so they intersect. *)
Example C74_ex : let p : prog i8 := P_points [v 2; v 7; v 8] in let q : prog i8 := P_points [v 5; v 7] in
  inputs true p /\ unions_only p /\ inputs true q /\ unions_only q /\
  exists a b, run true p = Ok a /\ run true q = Ok b /\ sel_intervals_are true a [one 2; cl 7 8] /\ sel_intervals_are true b [one 5; one 7] /\
    (exists r, sel_intersect true a b = Ok r /\ sel_contains true r (v 7) = Ok true /\ sel_contains true r (v 8) = Ok false) /\
    sel_intersects true a b = Ok true /\ sel_intersects true b a = Ok true /\ touching (cl 7 8 : Interval i8) (one 7).
Proof.
  cbv zeta. do 4 (split; [exact I|]). do 2 eexists. split; [reflexivity|]. split; [reflexivity|]. split; [drain|]. split; [drain|].
  split; [eexists; split; [reflexivity|]; split; reflexivity|]. split; [reflexivity|]. split; [reflexivity|]. exists (v 7), (v 7). split; [reflexivity|]. split; [reflexivity|]. now left.
Qed.
