(** * From positions to the specification of trees *)
From Coq Require Import List Bool ZArith Lia Sorted.
From Verif Require Import Base OrdFacts Pos MBound MRaw MTine MBTree MTineTree Spec Spec_Tree PRaw PRaw2 PBTree PTree PTreeOps PTreeIsect PTree2 PTree3 PTree4 PTree5 PTree6 PIter.
Import ListNotations.

#[local] Arguments cmp : simpl never.

Lemma drains_det {S A} (next : S -> res (option A * S)) it l l' : drains next it l -> drains next it l' -> l = l'.
Proof.
  intros H. revert l'. induction H as [it it' E|it it' a l E H IH]; intros l' H'; inversion H' as [? ? E'|? ? ? ? E' H'']; subst;
    rewrite E in E'; inversion E'; subst; auto. f_equal. auto.
Qed.

Section PTree7.
  Context {T : Type} {O : Ord T}.
  Implicit Types (s : list (Tine T)) (i j k : RawInterval T) (l : list (RawInterval T)) (x : T) (p q : pos T).

  Lemma intervals_pieces dbg s l : wf s -> intervals_are dbg s l -> l = pieces None s.
  Proof. intros W H. eapply drains_det; [exact H|now apply pieces_drains]. Qed.

  Lemma tree_eqb_eq s : forall s', tree_eqb s s' = true <-> s = s'.
  Proof.
    assert (B : forall a b : Bound T, bound_eqb a b = true <-> a = b).
    { intros [x|x|] [y|y|]; simpl; rewrite ?eqb_iff; split; intros H; try discriminate; try congruence; auto. }
    assert (E : forall a b : Tine T, tine_eqb a b = true <-> a = b).
    { intros [a|a|a] [b|b|b]; simpl; rewrite ?B; split; intros H; try discriminate; try congruence; auto. }
    induction s as [|a s IH]; intros [|b s']; simpl; split; intros H; try discriminate; auto.
    - apply andb_true_iff in H as [H1 H2]. apply E in H1. apply IH in H2. congruence.
    - inversion H; subst. apply andb_true_iff. split; [now apply E|now apply IH].
  Qed.

  Lemma is_den dbg s (P : T -> Prop) : wf s -> (tree_is dbg s P <-> forall x, den false s (At x) = true <-> P x).
  Proof.
    intros W. unfold tree_is. split.
    - intros H x. destruct (H x) as (b & E & K). rewrite tree_contains_den in E by auto. inversion E. subst. auto.
    - intros H x. exists (den false s (At x)). rewrite tree_contains_den by auto. auto.
  Qed.
  Lemma holds_den dbg s x : wf s -> (holds dbg s x <-> den false s (At x) = true).
  Proof. intros W. unfold holds. rewrite tree_contains_den by auto. split; intros H; [now inversion H|now rewrite H]. Qed.

  Lemma exact_of_den dbg r (P : T -> Prop) :
    (exists s, r = Ok s /\ wf s /\ forall x, den false s (At x) = true <-> P x) -> exact dbg r P.
  Proof. intros (s & -> & W & H). exists s. split; auto. split; [now apply wf_tree_wf|]. now apply is_den. Qed.
  Lemma exact_den dbg r (P : T -> Prop) : exact dbg r P ->
    exists s, r = Ok s /\ wf s /\ forall x, den false s (At x) = true <-> P x.
  Proof. intros (s & -> & W & H). apply wf_tree_wf in W. exists s. split; auto. split; auto. now apply (is_den dbg). Qed.

  (** ** Obstacles to [minus_in_place] *)
  Lemma ends_at_of i x : ends_at i x <-> end_of i x.
  Proof.
    unfold ends_at, end_of. split.
    - intros [(b & E & H)|(b & E & H)]; rewrite E; [left|right]; destruct b; simpl in H; auto.
    - intros [H|H]; [left; destruct (raw_lower_bound i) as [b|]|right; destruct (raw_upper_bound i) as [b|]]; try contradiction;
        exists b; split; auto; destruct b; auto.
  Qed.

  Definition obstacle s i : Prop :=
    match i with Point x => rim s x = true | _ => exists x, ends_at i x /\ hole s x = true end.
  Lemma obstacle_pieces s i : wf s -> (minus_obstacle (pieces None s) i <-> obstacle s i).
  Proof.
    intros W. assert (R := fun x => rim_pieces s x W). assert (Hh := fun x => hole_pieces s x W).
    destruct i; simpl; unfold excluded_end, pinhole; setoid_rewrite R || setoid_rewrite Hh; reflexivity.
  Qed.
  Lemma hole_rim s x : rim s x = false -> hole s x = false.
  Proof. unfold rim, hole. destruct (den false s (At x)), (den false s (Lo x)), (den false s (Hi x)); auto. Qed.
  Lemma hole_dec s i : (exists x, ends_at i x /\ hole s x = true) \/ (forall x, ends_at i x -> hole s x = false).
  Proof.
    assert (D : forall o : option (Bound T), (exists b x, o = Some b /\ bound_at b x /\ hole s x = true) \/
                 (forall b x, o = Some b -> bound_at b x -> hole s x = false)).
    { intros [b|]; [|right; discriminate].
      destruct b as [x|x|].
      - destruct (hole s x) eqn:E; [left; exists (Include x), x; simpl; auto|right; intros b y H K; inversion H; subst; simpl in K; congruence].
      - destruct (hole s x) eqn:E; [left; exists (Exclude x), x; simpl; auto|right; intros b y H K; inversion H; subst; simpl in K; congruence].
      - right. intros b y H K. inversion H; subst. contradiction. }
    destruct (D (raw_lower_bound i)) as [(b & x & E & B & H)|NL].
    { left. exists x. split; auto. left. eauto. }
    destruct (D (raw_upper_bound i)) as [(b & x & E & B & H)|NU].
    { left. exists x. split; auto. right. eauto. }
    right. intros x [(b & E & B)|(b & E & B)]; eauto.
  Qed.

  Lemma point_or i : (exists x, i = Point x) \/ (forall x, i <> Point x).
  Proof. destruct i; try (right; discriminate). left. eauto. Qed.
  Lemma obstacle_proper s i : (forall x, i <> Point x) -> (obstacle s i <-> exists x, ends_at i x /\ hole s x = true).
  Proof. intros N. destruct i; try reflexivity. now destruct (N p). Qed.

  Lemma bound_fills s i (lo up : Bound T) p : raw_lower_bound i = Some lo -> raw_upper_bound i = Some up ->
    fills s lo p || fills s up p = true <-> exists x, ends_at i x /\ hole s x = true /\ p = At x.
  Proof.
    intros EL EU.
    assert (K : forall d, fills s d p = true <-> exists x, bound_at d x /\ hole s x = true /\ p = At x).
    { intros [x|x|]; simpl; split; try discriminate.
      - destruct (cmp p (At x)) eqn:E; try discriminate. apply cmp_eq in E. intros H. exists x. auto.
      - intros (y & -> & H & ->). now rewrite cmp_refl.
      - destruct (cmp p (At x)) eqn:E; try discriminate. apply cmp_eq in E. intros H. exists x. auto.
      - intros (y & -> & H & ->). now rewrite cmp_refl.
      - intros (y & [] & _). }
    rewrite orb_true_iff, !K. unfold ends_at. rewrite EL, EU. split.
    - intros [(x & B & H & E)|(x & B & H & E)]; exists x; repeat split; auto; [left|right]; eauto.
    - intros (x & [(b & E & B)|(b & E & B)] & H & Ep); inversion E; subst; [left|right]; exists x; auto.
  Qed.

  Lemma minus_exact dbg s i : wf s -> raw_wf i -> ~ obstacle s i ->
    exists s', tree_minus_in_place dbg s i = Ok s' /\ wf s' /\ forall p, den false s' p = den false s p && negb (covers i p).
  Proof.
    intros W Wi N. destruct (point_or i) as [[x ->]|NP].
    - apply minus_in_place_point; auto. simpl in N. now destruct (rim s x).
    - destruct (minus_in_place_proper dbg s i W Wi NP) as (s' & E & W' & H). exists s'. split; auto. split; auto.
      intros p. rewrite H. destruct (raw_bounds_cases i) as [(-> & -> & _)|(lo & up & EL & EU)]; [now rewrite orb_false_r|].
      rewrite EL, EU. destruct (fills s lo p || fills s up p) eqn:F; [|now rewrite orb_false_r].
      apply (bound_fills s i lo up p EL EU) in F as (x & K1 & K2 & _). exfalso. apply N. apply obstacle_proper; eauto.
  Qed.
  Lemma minus_obstacle_wrong dbg s i : wf s -> raw_wf i -> obstacle s i ->
    exists s', tree_minus_in_place dbg s i = Ok s' /\
      (~ wf s' \/ (wf s' /\ exists x, den false s (At x) = false /\ den false s' (At x) = true)).
  Proof.
    intros W Wi N. destruct (point_or i) as [[x ->]|NP].
    - destruct (minus_in_place_rim dbg s x W N) as (s' & E & K). eauto.
    - destruct (minus_in_place_proper dbg s i W Wi NP) as (s' & E & W' & H). exists s'. split; auto. right. split; auto.
      apply obstacle_proper in N as (x & K1 & K2); auto. exists x. split.
      + unfold hole in K2. now destruct (den false s (At x)).
      + rewrite H. destruct (raw_bounds_cases i) as [(-> & _)|(lo & up & EL & EU)].
        { destruct K1 as [(b & K & _)|(b & K & _)]; discriminate. }
        rewrite EL, EU. assert (F : fills s lo (At x) || fills s up (At x) = true) by (apply (bound_fills s i lo up (At x) EL EU); eauto).
        rewrite F. apply orb_true_r.
  Qed.

  Lemma minus_dbg s i : wf s -> raw_wf i -> tree_minus_in_place true s i = tree_minus_in_place false s i.
  Proof.
    intros W Wi. destruct (point_or i) as [[x ->]|NP].
    - destruct (rim s x) eqn:R.
      + unfold tree_minus_in_place. cbn [raw_is_empty raw_is_full tine_from_raw_interval]. rewrite orb_false_r.
        destruct (tree_is_empty s) eqn:Es; auto.
        destruct W as [Ss Hc]. destruct (split_at (At x) false s false) as (L & R' & c0 & v & c1 & -> & A & HL & HR' & BL & AR & SL & SR);
          try exact I; try discriminate; auto.
        unfold rim in R. rewrite den_Lo, den_At, den_Hi in R by auto.
        assert (v = false) as -> by (destruct v; auto).
        rewrite !minus_point_bad by (auto; destruct c0, c1; auto). reflexivity.
      + destruct (minus_in_place_point true s x W R) as (s1 & E1 & W1 & H1).
        destruct (minus_in_place_point false s x W R) as (s2 & E2 & W2 & H2). rewrite E1, E2. f_equal.
        apply den_ext; auto. intros p. now rewrite H1, H2.
    - destruct (minus_in_place_proper true s i W Wi NP) as (s1 & E1 & W1 & H1).
      destruct (minus_in_place_proper false s i W Wi NP) as (s2 & E2 & W2 & H2). rewrite E1, E2. f_equal.
      apply den_ext; auto. intros p. now rewrite H1, H2.
  Qed.

  (** ** Whole-tree [minus] *)
  Lemma separated_obstacle s s' i j : raw_wf i -> raw_wf j -> separated i j -> ~ obstacle s j ->
    (forall p, den false s' p = den false s p && negb (covers i p)) -> ~ obstacle s' j.
  Proof.
    intros Wi Wj S N H K.
    assert (Far : forall p, covers j p = true -> covers i p = false).
    { intros p Cj. destruct (covers i p) eqn:Ci; auto. exfalso.
      destruct (raw_bounds_cases i) as [(-> & _)|(li & ui & ELi & EUi)]; [discriminate|].
      destruct (raw_bounds_cases j) as [(-> & _)|(lj & uj & ELj & EUj)]; [discriminate|].
      rewrite (covers_bounds i p _ _ ELi EUi) in Ci. rewrite (covers_bounds j p _ _ ELj EUj) in Cj.
      unfold separated in S. rewrite EUi, ELj in S. destruct ui, lj; simpl in *; try contradiction; porder. }
    destruct (point_or j) as [[x ->]|NP].
    - assert (R : rim s x = rim s' x).
      { unfold rim. rewrite !H.
        assert (C : covers i (Lo x) = false /\ covers i (At x) = false /\ covers i (Hi x) = false).
        { destruct (raw_bounds_cases i) as [(-> & _)|(li & ui & ELi & EUi)]; [auto|].
          assert (U : lt (upos ui) (Lo x)) by (unfold separated in S; rewrite EUi in S; simpl in S; destruct ui; simpl in *; try contradiction; porder).
          assert (Z : forall q, le (Lo x) q -> covers i q = false).
          { intros q Hq. destruct (covers i q) eqn:E; auto. rewrite (covers_bounds i q _ _ ELi EUi) in E. exfalso. revert U Hq E. generalize (upos ui) (lpos li). clear. intros; porder. }
          repeat split; apply Z; clear; porder. }
        destruct C as (-> & -> & ->). now rewrite !andb_true_r. }
      simpl in K, N. rewrite R in N. auto.
    - apply obstacle_proper in K as (x & K1 & K2); auto. apply N. apply obstacle_proper; auto. exists x. split; auto.
      revert K2. unfold hole. rewrite !H.
      destruct (den false s (Lo x)); [|rewrite andb_false_r; discriminate].
      destruct (den false s (Hi x)); [|rewrite andb_false_r; discriminate].
      destruct (den false s (At x)); auto. simpl.
      (* the point was removed by [i], so one of its sides was *)
      rewrite !andb_true_iff, !negb_true_iff, negb_false_iff. intros [[A B] C]. exfalso.
      apply ends_at_of in K1.
      destruct (raw_bounds_cases i) as [(-> & _)|(li & ui & ELi & EUi)]; [discriminate|].
      destruct (raw_bounds_cases j) as [(-> & _)|(lj & uj & ELj & EUj)]; [destruct K1; contradiction|].
      pose proof (raw_wf_pos j _ _ Wj ELj EUj) as Pj. pose proof (raw_wf_pos i _ _ Wi ELi EUi) as Pi.
      assert (A' := proj1 (covers_bounds i _ _ _ ELi EUi) A).
      unfold separated in S. rewrite EUi, ELj in S. unfold end_of in K1. rewrite ELj, EUj in K1.
      destruct ui, lj; simpl in *; try contradiction; destruct K1 as [K1|K1]; try (destruct uj; simpl in *; try contradiction; subst); porder.
  Qed.

  Lemma minus_fold_exact dbg l : forall s, wf s -> Forall raw_wf l -> StronglySorted separated l ->
    (forall i, In i l -> ~ obstacle s i) ->
    exists s', mfold (fun acc i => tree_minus_in_place dbg acc i) l s = Ok s' /\ wf s' /\
      forall p, den false s' p = den false s p && negb (lcovers l p).
  Proof.
    induction l as [|i l IH]; intros s W Wl S N.
    - exists s. split; auto. split; auto. intros p. now rewrite andb_true_r.
    - inversion Wl as [|? ? Wi Wl']; subst. inversion S as [|? ? S1 S2]; subst.
      destruct (minus_exact dbg s i W) as (s1 & E1 & W1 & H1); auto. { apply N. now left. }
      destruct (IH s1 W1) as (s2 & E2 & W2 & H2); auto.
      { intros j Hj. apply (separated_obstacle s s1 i j); auto.
        - rewrite Forall_forall in *. auto.
        - rewrite Forall_forall in S2. auto.
        - apply N. now right. }
      exists s2. simpl. rewrite E1. simpl. split; auto. split; auto. intros p. rewrite H2, H1. unfold lcovers. simpl.
      now rewrite negb_orb, andb_assoc.
  Qed.
  Lemma tree_minus_exact dbg s s' : wf s -> wf s' -> (forall i, In i (pieces None s') -> ~ obstacle s i) ->
    exists r, tree_minus dbg s s' = Ok r /\ wf r /\ forall p, den false r p = den false s p && negb (den false s' p).
  Proof.
    intros W W' N. unfold tree_minus. rewrite tree_fold_pieces by auto.
    destruct (minus_fold_exact dbg (pieces None s') s W) as (r & E & Wr & H); auto.
    - apply pieces_wf.
    - apply pieces_separated; [apply W'|discriminate|apply W'].
    - exists r. split; auto. split; auto. intros p. now rewrite H, pieces_den.
  Qed.

  (** ** The domain of [intersect_in_place] *)
  Lemma filled_below_den s x : wf s -> (filled_below (pieces None s) x <-> den false s (Lo x) = true).
  Proof.
    intros W. rewrite <- pieces_den, lcovers_ex by auto. unfold filled_below.
    split; intros (i & Hin & H); exists i; (split; [auto|]); unfold starts_before, stops_from in *;
      destruct (raw_bounds_cases i) as [(-> & _ & _)|(lo & up & EL & EU)].
    - destruct H as [[] _].
    - rewrite EL, EU in H. rewrite (covers_bounds i _ _ _ EL EU). destruct lo, up; simpl; porder.
    - discriminate.
    - rewrite EL, EU. rewrite (covers_bounds i _ _ _ EL EU) in H. destruct lo, up; simpl in *; porder.
  Qed.
  Lemma filled_above_den s x : wf s -> (filled_above (pieces None s) x <-> den false s (Hi x) = true).
  Proof.
    intros W. rewrite <- pieces_den, lcovers_ex by auto. unfold filled_above.
    split; intros (i & Hin & H); exists i; (split; [auto|]); unfold starts_by, stops_after in *;
      destruct (raw_bounds_cases i) as [(-> & _ & _)|(lo & up & EL & EU)].
    - destruct H as [[] _].
    - rewrite EL, EU in H. rewrite (covers_bounds i _ _ _ EL EU). destruct lo, up; simpl; porder.
    - discriminate.
    - rewrite EL, EU. rewrite (covers_bounds i _ _ _ EL EU) in H. destruct lo, up; simpl in *; porder.
  Qed.
  Lemma at_den s x : wf s -> (some_contains (pieces None s) x <-> den false s (At x) = true).
  Proof. intros W. now rewrite some_contains_lcovers, pieces_den. Qed.
  Lemma first_inf s : wf s -> ((exists i, In i (pieces None s) /\ raw_lower_bound i = Some Infinite) <-> den false s NInf = true).
  Proof.
    intros W. rewrite <- pieces_den, lcovers_ex by auto.
    split; intros (i & Hin & H); exists i; (split; [auto|]).
    - destruct i; simpl in *; try discriminate; reflexivity.
    - destruct i; try discriminate; reflexivity.
  Qed.
  Lemma last_inf s : wf s -> ((exists i, In i (pieces None s) /\ raw_upper_bound i = Some Infinite) <-> den false s PInf = true).
  Proof.
    intros W. rewrite <- pieces_den, lcovers_ex by auto.
    split; intros (i & Hin & H); exists i; (split; [auto|]).
    - destruct i; simpl in *; try discriminate; reflexivity.
    - destruct i; try discriminate; reflexivity.
  Qed.

  Lemma near_lower_spec s (lo : Bound T) : wf s -> let '(b, v, c) := near_lower s lo in
    (out_lower (pieces None s) lo <-> b = true) /\ (at_lower (pieces None s) lo <-> v = true) /\ (in_lower (pieces None s) lo <-> c = true).
  Proof.
    intros W. pose proof (fun x => filled_below_den s x W) as A. pose proof (fun x => filled_above_den s x W) as B.
    pose proof (fun x => at_den s x W) as C. pose proof (first_inf s W) as D.
    destruct lo; simpl; auto. split; [|auto]. split; [contradiction|discriminate].
  Qed.
  Lemma near_upper_spec s (up : Bound T) : wf s -> let '(c, v, b) := near_upper s up in
    (in_upper (pieces None s) up <-> c = true) /\ (at_upper (pieces None s) up <-> v = true) /\ (out_upper (pieces None s) up <-> b = true).
  Proof.
    intros W. pose proof (fun x => filled_below_den s x W) as A. pose proof (fun x => filled_above_den s x W) as B.
    pose proof (fun x => at_den s x W) as C. pose proof (last_inf s W) as D.
    destruct up; simpl; auto. split; [auto|]. split; [auto|]. split; [contradiction|discriminate].
  Qed.
  Lemma inclusive_b (d : Bound T) : inclusive d <-> incl_b d = true.
  Proof. destruct d; simpl; split; auto; try discriminate; contradiction. Qed.

  Lemma pieces_nil s : wf s -> (pieces None s = [] <-> s = []).
  Proof.
    intros W. split; [|now intros ->]. intros E. apply den_ext; auto using new_wf. intros p. rewrite <- pieces_den by auto. now rewrite E.
  Qed.

  Lemma domain_fine dbg s i (lo up : Bound T) : wf s -> s <> [] -> proper i ->
    raw_lower_bound i = Some lo -> raw_upper_bound i = Some up ->
    (intersect_domain dbg (pieces None s) i <-> isect_fine dbg s lo up = true).
  Proof.
    intros W NE P EL EU. unfold isect_fine, isect_right.
    pose proof (near_lower_spec s lo W) as NL. pose proof (near_upper_spec s up W) as NU.
    destruct (near_lower s lo) as [[b0 vl] c0]. destruct (near_upper s up) as [[c1 vu] b1].
    destruct NL as (L1 & L2 & L3), NU as (U1 & U2 & U3).
    assert (E : intersect_domain dbg (pieces None s) i <->
      (in_lower (pieces None s) lo /\ in_upper (pieces None s) up) \/
      (out_lower (pieces None s) lo /\ in_lower (pieces None s) lo /\ ~ in_upper (pieces None s) up /\ ~ out_upper (pieces None s) up
         /\ ~ (at_upper (pieces None s) up /\ inclusive up)) \/
      (~ out_lower (pieces None s) lo /\ ~ in_lower (pieces None s) lo /\ in_upper (pieces None s) up /\ out_upper (pieces None s) up
         /\ ~ (at_lower (pieces None s) lo /\ inclusive lo)) \/
      (~ out_lower (pieces None s) lo /\ ~ in_lower (pieces None s) lo /\ ~ in_upper (pieces None s) up /\ ~ out_upper (pieces None s) up
         /\ ~ (at_lower (pieces None s) lo /\ inclusive lo) /\ ~ (at_upper (pieces None s) up /\ inclusive up)
         /\ (at_lower (pieces None s) lo \/ at_upper (pieces None s) up)) \/
      (dbg = false /\ ~ in_lower (pieces None s) lo /\ ~ in_upper (pieces None s) up /\ (at_lower (pieces None s) lo /\ inclusive lo)
         /\ (at_upper (pieces None s) up /\ inclusive up))).
    { unfold intersect_domain. destruct i; simpl in P; try contradiction;
        (split; [intros [X|(lo' & up' & E1 & E2 & X)]; [now apply pieces_nil in X|
                 rewrite EL in E1; rewrite EU in E2; inversion E1; inversion E2; subst lo' up'; exact X]
                |intros X; right; exists lo, up; auto]). }
    rewrite E, L1, L2, L3, U1, U2, U3, !inclusive_b. clear.
    generalize (incl_b lo) (incl_b up). intros il iu.
    destruct dbg, b0, vl, c0, c1, vu, b1, il, iu; simpl; intuition congruence.
  Qed.
End PTree7.
