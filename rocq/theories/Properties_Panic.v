(** * C101: exactly when calls panic *)
From Coq Require Import List Bool ZArith Lia Sorted Permutation.
From Verif Require Import Base OrdFacts Pos PFinite Ints MBound MRaw MNormalize MTine MBTree MTineTree MInterval MSelection
  Spec Spec_Tree Spec_Sel Spec_More Spec_Domain Spec_Panic PRaw PRaw2 PNorm PIter PInterval PBTree PTree PTreeOps PTreeIsect PTree2 PTree3 PTree4 PTree5 PTree6 PTree7
  PSel PSel2 PSel3 PSel4 Instances Properties_Raw Properties_Parse Properties_Interval Properties_Tree Properties_Selection Properties_Tree2
  Properties_Selection2 Properties_Selection4 Properties_Both PDomain PDomain2 Properties_Domain PPanic.
Import ListNotations.
Local Open Scope Z_scope.
Local Arguments cmp : simpl never.

(** [intersect_in_place] on a tree, with any interval. *)
Theorem C101_intersect_panics {T} {O : Ord T} dbg (s : TineTree T) l (i : RawInterval T) :
  tree_wf s -> intervals_are dbg s l -> raw_wf i ->
  (tree_intersect_in_place dbg s i = Panic <-> intersect_panics dbg l i).
Proof.
  intros W Hl Wi. apply wf_tree_wf in W. rewrite (intervals_pieces dbg s l W Hl). now apply panics_den.
Qed.
Print Assumptions C101_intersect_panics.

(** A release build panics only where the debug build does. *)
Corollary C101_release {T} {O : Ord T} (s : TineTree T) l (i : RawInterval T) :
  tree_wf s -> intervals_are true s l -> raw_wf i ->
  tree_intersect_in_place false s i = Panic -> tree_intersect_in_place true s i = Panic.
Proof.
  intros W Hl Wi. apply wf_tree_wf in W. rewrite !panics_den by auto. unfold intersect_panics.
  destruct i; auto; intros (lo & up & E1 & E2 & K); exists lo, up; (split; [exact E1|]); (split; [exact E2|]); cbv zeta in *; intuition discriminate.
Qed.
Print Assumptions C101_release.

Example C101_tree_ex :
  (exists s : TineTree Z, tree_wf s /\ intervals_are false s [Closed 0 3] /\ tree_intersect_in_place false s (Closed 0 5) = Panic /\
     intersect_panics false [Closed 0 3] (Closed 0 5)) /\
  (exists s : TineTree Z, tree_wf s /\ intervals_are true s [Point 0; Point 3] /\ tree_intersect_in_place true s (Closed 0 3) = Panic /\
     (exists r, tree_intersect_in_place false s (Closed 0 3) = Ok r) /\ ~ intersect_panics false [Point 0; Point 3] (Closed 0 3)).
Proof.
  assert (W1 : tree_wf [TLower (Include 0); TUpper (Include 3)]) by (split; [repeat constructor|reflexivity]).
  assert (W2 : tree_wf [TPoint (Include 0); TPoint (Include 3)]) by (split; [repeat constructor|reflexivity]).
  split.
  - exists [TLower (Include 0); TUpper (Include 3)]. split; [exact W1|].
    assert (L : intervals_are false [TLower (Include 0); TUpper (Include 3)] [Closed 0 3]) by repeat econstructor.
    split; [exact L|]. split; [reflexivity|]. apply (C101_intersect_panics false _ _ (Closed 0 5) W1 L); reflexivity.
  - exists [TPoint (Include 0); TPoint (Include 3)]. split; [exact W2|].
    assert (L : forall dbg, intervals_are dbg [TPoint (Include 0); TPoint (Include 3)] [Point 0; Point 3]) by (intros dbg; repeat econstructor).
    split; [apply L|]. split; [reflexivity|]. split; [eexists; reflexivity|].
    intros K. apply (C101_intersect_panics false _ _ (Closed 0 3) W2 (L false)) in K; [discriminate|reflexivity].
Qed.

Section SelectionPanics.
  Context {T : Type} {O : Ord T} {F : Finite T}.

  Lemma sel_panics_ext (P Q : T -> Prop) i : (forall x, P x <-> Q x) -> (sel_intersect_panics P i <-> sel_intersect_panics Q i) /\
    (clear_of_ends P i <-> clear_of_ends Q i) /\ (sel_intersect_domain P i <-> sel_intersect_domain Q i).
  Proof.
    intros PQ.
    assert (E1 : forall (o : option T), (exists a, o = Some a /\ P a) <-> (exists a, o = Some a /\ Q a)).
    { intros o. split; intros (a & Ea & Ha); exists a; (split; [auto|now apply PQ]). }
    assert (A : forall m, at_or_before P m <-> at_or_before Q m) by (intros m; unfold at_or_before; now rewrite PQ, E1).
    assert (B : forall m, at_or_after P m <-> at_or_after Q m) by (intros m; unfold at_or_after; now rewrite PQ, E1).
    assert (C : forall m, two_before P m <-> two_before Q m).
    { intros m. unfold two_before. split; intros (a & Ea & Ha); exists a; (split; [auto|now apply A]). }
    assert (D : forall m, two_after P m <-> two_after Q m).
    { intros m. unfold two_after. split; intros (a & Ea & Ha); exists a; (split; [auto|now apply B]). }
    split; [|split].
    - unfold sel_intersect_panics. split; intros (l & u & K1 & K2 & K3 & K); exists l, u; (split; [exact K1|]); (split; [exact K2|]); (split; [exact K3|]).
      + rewrite A, B, C, D in K. exact K.
      + rewrite A, B, C, D. exact K.
    - unfold clear_of_ends. split; intros (l & u & K1 & K2 & K3 & K); exists l, u; (split; [exact K1|]); (split; [exact K2|]); (split; [exact K3|]).
      + rewrite A, B, C, D in K. exact K.
      + rewrite A, B, C, D. exact K.
    - unfold sel_intersect_domain.
      assert (N : (forall x, ~ P x) <-> (forall x, ~ Q x)) by (split; intros K x; [rewrite <- PQ|rewrite PQ]; apply K). rewrite N.
      split; (intros [K|[K|[K|(l & u & K1 & K2 & K)]]]; auto; right; right; right; exists l, u; (split; [exact K1|]); (split; [exact K2|])).
      + rewrite A, B, C, D in K. exact K.
      + rewrite A, B, C, D. exact K.
  Qed.

  (** The interval of the call, by its least and greatest value. *)
  Definition lo_of (l : T) : Bound T := match pred l with Some a => Exclude a | None => Infinite end.
  Definition up_of (u : T) : Bound T := match succ u with Some b => Exclude b | None => Infinite end.

  Lemma least_same (P : T -> Prop) l l' : least P l -> least P l' -> l = l'.
  Proof. intros [A B] [C D]. apply le_both; auto. Qed.
  Lemma greatest_same (P : T -> Prop) l l' : greatest P l -> greatest P l' -> l = l'.
  Proof. intros [A B] [C D]. apply le_both; auto. Qed.

  Lemma between_extremes i l u : reach true i -> least (ipoints i) l -> greatest (ipoints i) u -> forall x, ipoints i x <-> le l x /\ le x u.
  Proof.
    intros R L U x. split; [intros H; split; [now apply L|now apply U]|]. intros [A B].
    destruct L as [L _], U as [U _]. pose proof (reach_solid i R) as S. unfold ipoints, interval_contains in *.
    destruct (interval_raw i); simpl in *; try contradiction; try discriminate; clear - L U A B S; order.
  Qed.

  Lemma call_cases i : reach true i ->
    ((denormalized (interval_raw i) = Empty /\ forall x, ~ ipoints i x) \/
     (denormalized (interval_raw i) = Full /\ forall x, ipoints i x) \/
     exists l u, least (ipoints i) l /\ greatest (ipoints i) u /\ (exists x, ~ ipoints i x) /\
       proper (denormalized (interval_raw i)) /\ raw_wf (denormalized (interval_raw i)) /\
       raw_lower_bound (denormalized (interval_raw i)) = Some (lo_of l) /\ raw_upper_bound (denormalized (interval_raw i)) = Some (up_of u)).
  Proof.
    intros R. pose proof (reach_solid i R) as S.
    assert (Cv : forall x, raw_contains (denormalized (interval_raw i)) x = true <-> ipoints i x).
    { intros x. rewrite denormalized_tight_contains by now apply solid_tight. reflexivity. }
    assert (Wf : raw_wf (denormalized (interval_raw i))) by (apply denormalized_tight_wf; now apply solid_tight).
    destruct (reach_solid_cases i S) as [E|(l & u & Hl & Hu & E)].
    - left. split; auto. intros x K. apply Cv in K. rewrite E in K. discriminate.
    - right. unfold lo_of, up_of. destruct (pred l) as [a|] eqn:Ea, (succ u) as [b|] eqn:Eb;
        [| | |left; split; [exact E|]; intros x; apply Cv; now rewrite E];
        right; exists l, u; (split; [exact Hl|]); (split; [exact Hu|]); rewrite E in *; rewrite ?Ea, ?Eb; simpl; auto.
      + split; [|auto]. exists a. intros K. apply (proj2 Hl) in K. apply pred_some in Ea as [Ea _]. clear - K Ea. order.
      + split; [|auto]. exists a. intros K. apply (proj2 Hl) in K. apply pred_some in Ea as [Ea _]. clear - K Ea. order.
      + split; [|auto]. exists b. intros K. apply (proj2 Hu) in K. apply succ_some in Eb as [Eb _]. clear - K Eb. order.
  Qed.

  Lemma bad_iff dbg s l u : open_cov (den false s) ->
    (isect_panic dbg s (lo_of l) (up_of u) = true <->
     (at_or_before (inS s) l /\ ~ at_or_after (inS s) u /\ (~ two_before (inS s) l \/ two_after (inS s) u)) \/
     (~ at_or_before (inS s) l /\ at_or_after (inS s) u /\ (two_before (inS s) l \/ ~ two_after (inS s) u)) \/
     (~ at_or_before (inS s) l /\ ~ at_or_after (inS s) u /\ (two_before (inS s) l \/ two_after (inS s) u))).
  Proof.
    intros Op. unfold isect_panic, lo_of, up_of.
    destruct (near_lower s _) as [[b0 vl] c0] eqn:E1. destruct (near_upper s _) as [[c1 vu] b1] eqn:E2.
    destruct (low_flags s l Op _ _ _ E1) as (<- & <- & V1 & _). destruct (high_flags s u Op _ _ _ E2) as (<- & <- & V2). clear E1 E2.
    unfold isect_bad. destruct (incl_b _), (incl_b _), b0, c0, c1, b1, vl, vu, dbg; simpl; try (specialize (V1 eq_refl); discriminate);
      try (specialize (V2 eq_refl); discriminate); intuition discriminate.
  Qed.

  (** On a Selection built by unions, in both builds alike. *)
  Theorem C101_selection dbg (p : prog T) s i : inputs true p -> unions_only p -> run dbg p = Ok s -> reach true i ->
    (sel_intersect_in_place dbg s i = Panic <-> sel_intersect_panics (member dbg s) i).
  Proof.
    intros H U E R. destruct (run_open dbg p s H U E) as [W Op].
    destruct (sel_panics_ext (member dbg s) (inS s) i) as (-> & _ & _); [intros x; now apply member_in|].
    unfold sel_intersect_in_place.
    destruct (call_cases i R) as [(Ei & K)|[(Ei & K)|(l & u & Hl & Hu & Hx & Pi & Wi & EL & EU)]].
    - rewrite Ei. split; [intros X; apply isect_panic_easy in X; auto; contradiction|]. intros (l & u & [X _] & _). now apply K in X.
    - rewrite Ei. split; [intros X; apply isect_panic_easy in X; auto; contradiction|]. intros (l & u & _ & _ & (x & X) & _). now destruct X.
    - assert (Q : sel_intersect_panics (inS s) i <-> isect_panic dbg s (lo_of l) (up_of u) = true).
      { rewrite bad_iff by auto. split.
        - intros (l' & u' & Hl' & Hu' & _ & X). rewrite (least_same _ l l' Hl Hl'), (greatest_same _ u u' Hu Hu'). exact X.
        - intros X. exists l, u. auto. }
      rewrite Q. destruct s as [|t s0].
      + rewrite isect_in_place_empty. split; [discriminate|]. unfold lo_of, up_of. destruct dbg, (pred l), (succ u); discriminate.
      + apply isect_panic_iff; auto. discriminate.
  Qed.

  (** If the Selection keeps clear of both ends of the interval the call
      neither panics nor intersects: without a common value it returns the
      interval itself; with one it returns a Selection on which any [contains]
      of a debug build panics. *)
  Theorem C101_clear dbg (p : prog T) s i : inputs true p -> unions_only p -> run dbg p = Ok s -> reach true i ->
    (exists x, member dbg s x) -> clear_of_ends (member dbg s) i ->
    ((forall x, member dbg s x -> ~ ipoints i x) -> sel_intersect_in_place dbg s i = Ok (sel_from i)) /\
    (forall x, member dbg s x -> ipoints i x ->
       exists s', sel_intersect_in_place dbg s i = Ok s' /\ forall y, sel_contains true s' y = Panic).
  Proof.
    intros H U E R (x0 & Hx0) K. destruct (run_open dbg p s H U E) as [W Op].
    assert (M : forall x, member dbg s x <-> inS s x) by (intros; now apply member_in).
    apply (sel_panics_ext (member dbg s) (inS s) i M) in K. destruct K as (l' & u' & Hl' & Hu' & Hx' & K1 & K2 & K3 & K4).
    unfold sel_intersect_in_place, sel_from.
    destruct (call_cases i R) as [(Ei & K)|[(Ei & K)|(l & u & Hl & Hu & Hx & Pi & Wi & EL & EU)]].
    - destruct Hl' as [X _]. now apply K in X.
    - destruct Hx' as (x & X). now destruct X.
    - assert (l' = l) as -> by (eapply least_same; eauto). assert (u' = u) as -> by (eapply greatest_same; eauto).
      assert (Ne : s <> []).
      { intros ->. apply M in Hx0. discriminate. }
      assert (NL : near_lower s (lo_of l) = (false, false, false)).
      { destruct (near_lower s (lo_of l)) as [[b0 vl] c0] eqn:E1. destruct (low_flags s l Op _ _ _ E1) as (A1 & A2 & V1 & _).
        destruct c0; [now destruct K1; apply A1|]. destruct b0; [now destruct K2; apply A2|]. destruct vl; [discriminate (V1 eq_refl)|]. reflexivity. }
      assert (NU : near_upper s (up_of u) = (false, false, false)).
      { destruct (near_upper s (up_of u)) as [[c1 vu] b1] eqn:E2. destruct (high_flags s u Op _ _ _ E2) as (A1 & A2 & V2).
        destruct c1; [now destruct K3; apply A1|]. destruct b1; [now destruct K4; apply A2|]. destruct vu; [discriminate (V2 eq_refl)|]. reflexivity. }
      destruct (isect_clear dbg s _ (lo_of l) (up_of u) W Ne Wi Pi EL EU NL NU) as (C & Er & WC & DC). rewrite Er.
      assert (Cv : forall x, covers (denormalized (interval_raw i)) (At x) = true <-> ipoints i x).
      { intros x. rewrite covers_At, denormalized_tight_contains by (apply solid_tight; now apply reach_solid). reflexivity. }
      assert (Iv : forall x, ipoints i x <-> le l x /\ le x u) by (intros x; eapply between_extremes; eauto).
      assert (Op' : open_cov (den false C)).
      { pose proof (denorm_open _ (reach_solid i R)) as (B1 & B2 & B3 & B4). destruct Op as (A1 & A2 & A3 & A4).
        assert (Edge : forall x y, succ x = Some y -> (ipoints i x /\ ipoints i y) \/ (~ ipoints i x /\ ~ ipoints i y) \/ (~ inS s x /\ ~ inS s y)).
        { intros x y Exy. rewrite !Iv. destruct (leb l x) eqn:Lx, (leb x u) eqn:Ux, (leb l y) eqn:Ly, (leb y u) eqn:Uy;
            try (left; clear - Lx Ux Ly Uy; repeat split; order); try (right; left; clear - Lx Ux Ly Uy; split; (intros [? ?]; order)); try (exfalso; clear - Exy Lx Ux Ly Uy; forder).
          - right; right. assert (x = u) as -> by (clear - Exy Lx Ux Ly Uy; forder).
            split; intros X; apply K3; [now left|right; eauto].
          - right; right. assert (y = l) as -> by (clear - Exy Lx Ux Ly Uy; forder).
            split; intros X; apply K1; [right; exists x; split; [clear - Exy; forder|exact X]|now left]. }
        assert (EdgeB : forall x y, succ x = Some y ->
          (covers (denormalized (interval_raw i)) (At x) = covers (denormalized (interval_raw i)) (At y)) \/
          (den false s (At x) = false /\ den false s (At y) = false)).
        { intros x y Exy. destruct (Edge x y Exy) as [[X Y]|[[X Y]|[X Y]]].
          - left. apply Cv in X. apply Cv in Y. congruence.
          - left. rewrite <- Cv in X, Y. destruct (covers _ (At x)), (covers _ (At y)); congruence.
          - right. unfold inS in *. destruct (den false s (At x)), (den false s (At y)); intuition congruence. }
        split; [|split; [|split]].
        - intros x. rewrite !DC, A1, B1. destruct (succ x) as [y|] eqn:Exy; [|now rewrite !orb_false_r].
          rewrite DC. destruct (EdgeB x y Exy) as [->|[-> ->]]; [|reflexivity].
          destruct (covers _ (At y)), (den false s (At x)), (den false s (At y)); reflexivity.
        - intros x. rewrite !DC, A2, B2. destruct (pred x) as [y|] eqn:Exy; [|now rewrite !orb_false_r].
          rewrite DC. assert (Eyx : succ y = Some x) by (clear - Exy; forder). destruct (EdgeB y x Eyx) as [->|[-> ->]]; [|reflexivity].
          destruct (covers _ (At x)), (den false s (At x)), (den false s (At y)); reflexivity.
        - now rewrite !DC, A3, B3.
        - now rewrite !DC, A4, B4. }
      split.
      + intros N.
        assert (C = []) as ->.
        { apply open_canonical; auto using new_wf.
          - repeat split; intros; simpl; auto; first [now destruct (succ x)|now destruct (pred x)].
          - intros x. rewrite DC. change (den false [] (At x)) with false. apply not_true_is_false. intros X. apply andb_true_iff in X as [X Y].
            apply (N x); [now apply M|now apply Cv]. }
        destruct (from_raw_wf _ Wi) as (_ & -> & _).
        destruct (tines_cases _ Wi) as [(E1 & _)|[(x & E1 & _)|(l' & u' & EL' & EU' & _ & -> & _)]]; [rewrite E1 in Pi; destruct Pi|rewrite E1 in Pi; destruct Pi|].
        rewrite EL in EL'. rewrite EU in EU'. injection EL' as <-. injection EU' as <-. reflexivity.
      + intros x Hx1 Hx2. eexists. split; [reflexivity|]. intros y.
        destruct C as [|t C].
        { exfalso. apply M in Hx1. unfold inS in Hx1. apply Cv in Hx2. specialize (DC (At x)). rewrite Hx1, Hx2 in DC. discriminate. }
        pose proof (first_open C t WC Op') as Ft.
        assert (Lt : is_upper_bound t = false).
        { destruct WC as [_ WC]. simpl in WC. apply andb_true_iff in WC as [WC _]. apply andb_true_iff in WC as [_ WC]. now destruct (is_upper_bound t). }
        unfold sel_contains, tree_contains. cbn [contains_fuel tree_interval_iter iter_size tine_iter saved_lower saved_upper length].
        unfold iter_next. cbn [tree_interval_iter tine_iter saved_lower saved_upper btree_first btree_rest_front app debug_assert is_lower_bound bind].
        cbn. rewrite Lt. reflexivity.
  Qed.

  (** One of the three always applies: the call is right (C72), it panics, or
      the Selection is not empty and keeps clear of the ends. *)
  Theorem C101_cases dbg (p : prog T) s i : inputs true p -> unions_only p -> run dbg p = Ok s -> reach true i ->
    sel_intersect_domain (member dbg s) i \/ sel_intersect_panics (member dbg s) i \/
    ((exists x, member dbg s x) /\ clear_of_ends (member dbg s) i).
  Proof.
    intros H U E R. destruct (run_open dbg p s H U E) as [W Op].
    assert (M : forall x, member dbg s x <-> inS s x) by (intros; now apply member_in).
    destruct (sel_panics_ext (member dbg s) (inS s) i M) as (-> & -> & ->).
    destruct (call_cases i R) as [(Ei & K)|[(Ei & K)|(l & u & Hl & Hu & Hx & Pi & Wi & EL & EU)]].
    - left. right; left. exact K.
    - left. right; right; left. exact K.
    - destruct (near_lower s (lo_of l)) as [[b0 vl] c0] eqn:E1. destruct (low_flags s l Op _ _ _ E1) as (A1 & A2 & V1 & _).
      destruct (near_upper s (up_of u)) as [[c1 vu] b1] eqn:E2. destruct (high_flags s u Op _ _ _ E2) as (B1 & B2 & V2).
      destruct s as [|t s0]; [left; left; intros x X; discriminate|].
      assert (Nx : exists x, member dbg (t :: s0) x).
      { pose proof (first_open s0 t W Op) as Ft. destruct (tine_into_inner t) as [a|a|]; [contradiction|destruct Ft as (m & _ & [Ft _])|destruct Ft as [Ft _]];
          eexists; apply M; exact Ft. }
      assert (D : sel_intersect_domain (inS (t :: s0)) i \/ sel_intersect_panics (inS (t :: s0)) i \/ clear_of_ends (inS (t :: s0)) i).
      { destruct b0, c0, c1, b1;
          first [left; right; right; right; exists l, u; (split; [exact Hl|]); (split; [exact Hu|]); rewrite <- A1, <- A2, <- B1, <- B2; clear; intuition discriminate
                |right; left; exists l, u; (split; [exact Hl|]); (split; [exact Hu|]); (split; [exact Hx|]); rewrite <- A1, <- A2, <- B1, <- B2; clear; intuition discriminate
                |right; right; exists l, u; (split; [exact Hl|]); (split; [exact Hu|]); (split; [exact Hx|]); rewrite <- A1, <- A2, <- B1, <- B2; clear; intuition discriminate]. }
      destruct D as [D|[D|D]]; auto.
  Qed.
End SelectionPanics.
Print Assumptions C101_selection.
Print Assumptions C101_clear.
Print Assumptions C101_cases.

(** A panic, in either build; and the two ways of keeping clear. *)
Example C101_ex :
  (exists s, run false (P_points [v 1; v 4; v 9]) = Ok s /\ inputs true (P_points [v 1; v 4; v 9]) /\ unions_only (P_points [v 1; v 4; v 9]) /\
     reach true (cl 3 6) /\ sel_intersect_in_place false s (cl 3 6) = Panic) /\
  (exists s, run true (P_from (cl 10 20)) = Ok s /\ sel_intersect_in_place true s (cl 0 5) = Ok (sel_from (cl 0 5)) /\ member true s (v 12) /\
     clear_of_ends (member true s) (cl 0 5)) /\
  (exists s s', run true (P_from (cl 1 2)) = Ok s /\ sel_intersect_in_place true s (cl (-3) 5) = Ok s' /\ sel_contains true s' (v 100) = Panic).
Proof.
  split; [|split].
  - eexists. split; [reflexivity|]. do 3 (split; [constructor|]). reflexivity.
  - eexists. split; [reflexivity|]. split; [reflexivity|]. split; [reflexivity|].
    exists (v 0), (v 5).
    assert (X : least (ipoints (cl 0 5 : Interval i8)) (v 0) /\ greatest (ipoints (cl 0 5 : Interval i8)) (v 5)) by (apply bounds_extremes; [reflexivity|reflexivity|discriminate]).
    destruct X as [L G]. split; [exact L|]. split; [exact G|]. split; [exists (v 9); discriminate|].
    repeat split; (intros X; repeat match type of X with
      | at_or_before _ _ => destruct X as [X|X] | at_or_after _ _ => destruct X as [X|X]
      | two_before _ _ => destruct X as (a & Ea & X); injection Ea as <- | two_after _ _ => destruct X as (a & Ea & X); injection Ea as <-
      | exists a, _ /\ _ => let a := fresh "a" in let Ea := fresh "Ea" in destruct X as (a & Ea & X); injection Ea as <- end; discriminate X).
  - do 2 eexists. split; [reflexivity|]. split; reflexivity.
Qed.
