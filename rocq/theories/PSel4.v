(** * Proofs about Selections: difference and intersection *)
From Coq Require Import List Bool ZArith Lia Sorted.
From Verif Require Import Base OrdFacts Pos PFinite MBound MRaw MNormalize MTine MBTree MTineTree MInterval MSelection
  Spec Spec_Tree Spec_Sel PRaw PRaw2 PNorm PIter PInterval PBTree PTree PTreeOps PTreeIsect PTree2 PTree3 PTree4 PTree5 PTree6 PTree7 PSel PSel2 PSel3.
Import ListNotations.
Local Arguments cmp : simpl never.

Section PMinus.
  Context {T : Type} {O : Ord T}.
  Implicit Types (s : TineTree T) (i j r : RawInterval T) (x y : T).

  (** ** The difference of trees, described exactly when no point is removed *)
  Definition no_point i : Prop := forall x, i <> Point x.

  Lemma minus_one dbg s i : wf s -> raw_wf i -> no_point i ->
    exists s', tree_minus_in_place dbg s i = Ok s' /\ wf s' /\
      forall p, den false s' p = true <->
        (den false s p = true /\ covers i p = false) \/ (exists x, p = At x /\ hole s x = true /\ ends_at i x).
  Proof.
    intros W Wi NP. destruct (minus_in_place_proper dbg s i W Wi NP) as (s' & E & W' & H).
    exists s'. split; auto. split; auto. intros p. rewrite H, orb_true_iff, andb_true_iff, negb_true_iff.
    destruct (raw_bounds_cases i) as [(-> & EL & EU)|(lo & up & EL & EU)].
    - rewrite EL. split; [intuition discriminate|]. intros [K|(x & _ & _ & [(b & K & _)|(b & K & _)])]; auto; discriminate.
    - rewrite EL, EU, (bound_fills s i lo up p EL EU). split; (intros [K|(x & K)]; [auto|right; exists x; tauto]).
  Qed.

  (** An end of a later interval is not inside an earlier one, and sits next to
      it only if it is its end too. *)
  Lemma ends_after i j x : raw_wf i -> raw_wf j -> separated i j -> ends_at j x ->
    covers i (At x) = false /\ covers i (Hi x) = false /\ (covers i (Lo x) = true -> ends_at i x).
  Proof.
    intros Wi Wj Sep Ex.
    destruct (raw_bounds_cases i) as [(-> & _ & _)|(lo & up & EL & EU)]; [rewrite !covers_empty; split; auto; split; auto; discriminate|].
    destruct (raw_bounds_cases j) as [(-> & _ & EU2)|(lo2 & up2 & EL2 & EU2)].
    { destruct Ex as [(b & K & _)|(b & K & _)]; discriminate. }
    pose proof (raw_wf_pos j lo2 up2 Wj EL2 EU2) as H2.
    assert (Hx : bound_at lo2 x \/ bound_at up2 x).
    { destruct Ex as [(b & K & K')|(b & K & K')]; [left|right]; congruence. }
    unfold separated in Sep. rewrite EU, EL2 in Sep.
    assert (N : forall p, lt (upos up) p -> covers i p = false).
    { intros p Hp. destruct (covers i p) eqn:C; auto. apply (covers_bounds i p lo up) in C; auto. destruct C as [_ C]. exfalso. po. }
    assert (K : lt (upos up) (At x) /\ (le (Lo x) (upos up) -> up = Exclude x)).
    { destruct up as [a|a|], lo2 as [b|b|]; try contradiction; destruct Hx as [Hx|Hx].
      all: try (simpl in Hx; subst b; split; [po|intros L; try (exfalso; po); f_equal; po]).
      all: destruct up2 as [c|c|]; simpl in Hx; try contradiction; subst c; (split; [po|intros L; try (exfalso; po); f_equal; po]). }
    destruct K as [K1 K2]. split; [apply N; po|]. split; [apply N; po|].
    intros C. apply (covers_bounds i _ lo up) in C; auto. destruct C as [_ C].
    right. exists (Exclude x). rewrite EU, (K2 C). simpl. auto.
  Qed.
  (** An end of an earlier interval is not inside a later one. *)
  Lemma ends_before i j x : raw_wf i -> raw_wf j -> separated i j -> ends_at i x -> covers j (At x) = false.
  Proof.
    intros Wi Wj Sep Ex.
    destruct (raw_bounds_cases i) as [(-> & _ & _)|(lo & up & EL & EU)]; [destruct Ex as [(b & K & _)|(b & K & _)]; discriminate|].
    destruct (raw_bounds_cases j) as [(-> & _ & EU2)|(lo2 & up2 & EL2 & EU2)]; [apply covers_empty|].
    pose proof (raw_wf_pos i lo up Wi EL EU) as H2.
    assert (Hx : bound_at lo x \/ bound_at up x).
    { destruct Ex as [(b & K & K')|(b & K & K')]; [left|right]; congruence. }
    unfold separated in Sep. rewrite EU, EL2 in Sep.
    destruct (covers j (At x)) eqn:C; auto. apply (covers_bounds j _ lo2 up2) in C; auto. destruct C as [C _]. exfalso.
    destruct up as [a|a|], lo2 as [b|b|]; try contradiction; destruct Hx as [Hx|Hx].
    all: try (simpl in Hx; subst a; po).
    all: destruct lo as [c|c|]; simpl in Hx; try contradiction; subst c; po.
  Qed.

  Lemma hole_iff s x : hole s x = true <-> den false s (At x) = false /\ den false s (Lo x) = true /\ den false s (Hi x) = true.
  Proof. unfold hole. rewrite !andb_true_iff, negb_true_iff. tauto. Qed.

  Lemma minus_fold_desc dbg l : forall s, wf s -> Forall raw_wf l -> Forall no_point l -> StronglySorted separated l ->
    exists s', mfold (fun acc i => tree_minus_in_place dbg acc i) l s = Ok s' /\ wf s' /\
      forall p, den false s' p = true <->
        (den false s p = true /\ lcovers l p = false) \/
        (exists x i, p = At x /\ hole s x = true /\ In i l /\ ends_at i x).
  Proof.
    induction l as [|i l IH]; intros s W Wl NP SS.
    - exists s. split; auto. split; auto. intros p. simpl. split; [auto|]. intros [K|(x & i & _ & _ & [] & _)]. tauto.
    - inversion Wl as [|? ? Wi Wl']; subst. inversion NP as [|? ? NPi NPl]; subst. inversion SS as [|? ? SS' Si]; subst.
      rewrite Forall_forall in Si, Wl'.
      destruct (minus_one dbg s i W Wi NPi) as (s1 & E & W1 & H1).
      destruct (IH s1 W1) as (s' & E' & W' & H'); auto; [now apply Forall_forall|].
      exists s'. cbn [mfold]. rewrite E. cbn [bind]. split; auto. split; auto. intros p. rewrite H', H1.
      assert (Hl : forall j x, In j l -> ends_at j x -> (hole s1 x = true <-> hole s x = true /\ ~ ends_at i x)).
      { intros j x Hj Ex. destruct (ends_after i j x Wi (Wl' j Hj) (Si j Hj) Ex) as (A & B & C).
        assert (Lo_At : forall y z : T, Lo y <> At z) by discriminate.
        assert (D1 : den false s1 (Lo x) = true <-> den false s (Lo x) = true /\ covers i (Lo x) = false).
        { rewrite H1. split; [intros [K|(z & K & _)]; [auto|discriminate]|auto]. }
        assert (D2 : den false s1 (Hi x) = true <-> den false s (Hi x) = true).
        { rewrite H1, B. split; [intros [K|(z & K & _)]; [tauto|discriminate]|auto]. }
        assert (D3 : den false s1 (At x) = true <-> den false s (At x) = true \/ (hole s x = true /\ ends_at i x)).
        { rewrite H1, A. split.
          - intros [K|(z & K & K' & K'')]; [tauto|injection K as <-; auto].
          - intros [K|K]; [auto|right; exists x; tauto]. }
        rewrite !hole_iff in *. rewrite D1, D2.
        destruct (den false s1 (At x)) eqn:Y; destruct (den false s (At x)) eqn:Y'; try (intuition congruence).
        destruct (covers i (Lo x)) eqn:Cv; [|intuition congruence].
        specialize (C eq_refl). intuition congruence. }
      assert (Lc : lcovers (i :: l) p = covers i p || lcovers l p) by reflexivity. rewrite Lc, orb_false_iff.
      split.
      + intros [[[K1|(x & -> & K1 & K2)] K3]|(x & j & -> & K1 & K2 & K3)].
        * left. tauto.
        * right. exists x, i. simpl. auto.
        * right. exists x, j. apply (Hl j x K2 K3) in K1 as [K1 _]. simpl. auto.
      + intros [[K1 [K2 K3]]|(x & j & -> & K1 & [<-|K2] & K3)].
        * left. auto.
        * left. split; [right; eauto|].
          destruct (lcovers l (At x)) eqn:C; auto. apply lcovers_ex in C as (k & Hk & C).
          rewrite (ends_before i k x Wi (Wl' k Hk) (Si k Hk) K3) in C. discriminate.
        * destruct (ends_after i j x Wi (Wl' j K2) (Si j K2) K3) as (A & _ & _).
          destruct (den false s1 (At x)) eqn:D1.
          -- apply H1 in D1. left. split; [exact D1|].
             destruct D1 as [[D1 _]|(z & Ez & _ & Kz)]; [rewrite hole_iff in K1; destruct K1; congruence|]. injection Ez as <-.
             destruct (lcovers l (At x)) eqn:C; auto. apply lcovers_ex in C as (k & Hk & C).
             rewrite (ends_before i k x Wi (Wl' k Hk) (Si k Hk) Kz) in C. discriminate.
          -- right. exists x, j. split; auto. split; auto. apply (Hl j x K2 K3). split; auto.
             intros Kz. assert (den false s1 (At x) = true); [|congruence]. apply H1. right. eauto.
  Qed.

  Lemma tree_minus_desc dbg s s' : wf s -> wf s' -> Forall no_point (pieces None s') ->
    exists m, tree_minus dbg s s' = Ok m /\ wf m /\
      forall p, den false m p = true <->
        (den false s p = true /\ den false s' p = false) \/
        (exists x i, p = At x /\ hole s x = true /\ In i (pieces None s') /\ ends_at i x).
  Proof.
    intros W W' NP. destruct (minus_fold_desc dbg (pieces None s') s W (pieces_wf s' None) NP) as (m & E & Wr & H).
    { destruct W' as [S C]. apply pieces_separated; auto. discriminate. }
    exists m. split; [unfold tree_minus; now rewrite tree_fold_pieces|]. split; auto. intros p. now rewrite H, pieces_den.
  Qed.
End PMinus.

Section PSel4.
  Context {T : Type} {O : Ord T} {F : Finite T}.
  Implicit Types (s : Selection T) (r : RawInterval T) (x y : T).

  Lemma hole_open s x : open_cov (den false s) -> (hole s x = true <-> lone_gap (inS s) x).
  Proof.
    intros (A & B & _). rewrite hole_iff, A, B. unfold lone_gap, inS. split.
    - intros (H1 & H2 & H3). rewrite H1 in *. simpl in *. split; [discriminate|]. split.
      + destruct (pred x); [eauto|discriminate].
      + destruct (succ x); [eauto|discriminate].
    - intros (H1 & (y & E1 & H2) & (z & E2 & H3)). rewrite E1, E2, H2, H3, !orb_true_r. split; auto. now destruct (den false s (At x)).
  Qed.

  Lemma reach_solid_cases i : solid (interval_raw i) ->
    denormalized (interval_raw i) = Empty \/
    exists l u, least (ipoints i) l /\ greatest (ipoints i) u /\
      denormalized (interval_raw i) =
        match pred l, succ u with
        | Some a, Some b => Open a b | Some a, None => UpFrom a | None, Some b => UpTo b | None, None => Full
        end.
  Proof.
    intros S. destruct (interval_raw i) as [|p| | | |l u| | | | |] eqn:E; simpl in S; try contradiction; auto; right.
    - exists p, p. destruct (bounds_extremes i p p) as [H1 H2]; try (rewrite E; reflexivity); [clear; order|]. split; auto.
    - exists l, u. destruct (bounds_extremes i l u) as [H1 H2]; try (rewrite E; reflexivity); [exact S|]. split; auto.
  Qed.

  Lemma denorm_ends i x : solid (interval_raw i) ->
    (ends_at (denormalized (interval_raw i)) x <-> just_below i x \/ just_above i x).
  Proof.
    intros S. unfold ends_at, just_below, just_above. destruct (reach_solid_cases i S) as [E|(l & u & Hl & Hu & E)].
    - rewrite E. simpl. split; [intros [(b & K & _)|(b & K & _)]; discriminate|].
      assert (N : forall y, ~ ipoints i y).
      { intros y Hy. destruct (interval_raw i) eqn:Er; simpl in S; try contradiction.
        - unfold ipoints, interval_contains in Hy. rewrite Er in Hy. discriminate.
        - simpl in E. destruct (pred p), (succ p); discriminate.
        - simpl in E. destruct (pred l), (succ r); discriminate. }
      intros [(m & [H _] & _)|(m & [H _] & _)]; now apply N in H.
    - assert (A : (exists m, least (ipoints i) m /\ pred m = Some x) <-> pred l = Some x).
      { split; [|eauto]. intros (m & H & K). now rewrite (least_unique _ _ _ Hl H). }
      assert (B : (exists m, greatest (ipoints i) m /\ succ m = Some x) <-> succ u = Some x).
      { split; [|eauto]. intros (m & H & K). now rewrite (greatest_unique _ _ _ Hu H). }
      rewrite A, B, E. destruct (pred l) as [a|], (succ u) as [b|]; simpl; split.
      all: try (intros [(d & K & K')|(d & K & K')]; injection K as <-; simpl in K'; try contradiction; subst; auto).
      all: intros [K|K]; try discriminate K.
      all: injection K as <-; first [left; eexists; split; [reflexivity|reflexivity]|right; eexists; split; [reflexivity|reflexivity]].
  Qed.

  Lemma open_no_points s : wf s -> open_cov (den false s) -> Forall no_point (pieces None s).
  Proof.
    intros W Op. apply Forall_forall. intros r Hr x ->. now apply (proj1 (open_excluded s _ W Op Hr) x).
  Qed.

  Lemma open_ends s x : wf s -> open_cov (den false s) ->
    ((exists r, In r (pieces None s) /\ ends_at r x) <->
     ~ inS s x /\ ((exists y, pred x = Some y /\ inS s y) \/ (exists y, succ x = Some y /\ inS s y))).
  Proof.
    intros W Op. transitivity (rim s x = true).
    - rewrite (rim_pieces s x W). split; intros (r & Hr & H); exists r; (split; [auto|]).
      + destruct (open_excluded s r W Op Hr) as [A B].
        destruct H as [(b & K & K')|(b & K & K')]; destruct b; simpl in K'; try contradiction; subst; auto.
        * now apply A in K.
        * now apply B in K.
      + destruct H as [H|H]; [left|right]; exists (Exclude x); (split; [auto|reflexivity]).
    - destruct Op as (A & B & _). unfold rim. rewrite andb_true_iff, negb_true_iff, orb_true_iff, A, B. unfold inS. split.
      + intros [H1 H2]. rewrite H1 in *. simpl in H2. split; [discriminate|].
        destruct H2 as [H2|H2]; [left; destruct (pred x)|right; destruct (succ x)]; eauto; discriminate.
      + intros [H1 H2]. split; [now destruct (den false s (At x))|].
        destruct H2 as [(y & E & H)|(y & E & H)]; [left|right]; rewrite E, H; apply orb_true_r.
  Qed.

  (** ** Intersection with an interval *)
  Lemma sel_isect_inside dbg s i : wf s -> open_cov (den false s) -> solid (interval_raw i) ->
    (forall m, least (ipoints i) m -> inS s m \/ exists x, pred m = Some x /\ inS s x) ->
    (forall m, greatest (ipoints i) m -> inS s m \/ exists x, succ m = Some x /\ inS s x) ->
    exists s', sel_intersect_in_place dbg s i = Ok s' /\ wf s' /\ forall x, inS s' x <-> inS s x /\ ipoints i x.
  Proof.
    intros W (A & B & C & D) S HL HU. unfold sel_intersect_in_place.
    assert (Cv : forall x, covers (denormalized (interval_raw i)) (At x) = true <-> ipoints i x).
    { intros x. rewrite covers_At, denormalized_tight_contains by now apply solid_tight. reflexivity. }
    assert (K : exists s', tree_intersect_in_place dbg s (denormalized (interval_raw i)) = Ok s' /\ wf s' /\
              forall p, den false s' p = den false s p && covers (denormalized (interval_raw i)) p).
    { destruct s as [|t s0].
      { rewrite isect_in_place_empty. exists []. split; [reflexivity|]. split; [apply new_wf|]. intros p. reflexivity. }
      destruct (reach_solid_cases i S) as [E|(l & u & Hl & Hu & E)].
      { rewrite E. apply isect_in_place_easy; [exact W|simpl; tauto]. }
      specialize (HL l Hl). specialize (HU u Hu). 
      assert (GL : match pred l with Some a => den false (t :: s0) (Hi a) | None => den false (t :: s0) NInf end = true).
      { destruct (pred l) as [a|] eqn:Ea.
        - rewrite A. assert (Es : succ a = Some l) by (clear - Ea; forder). rewrite Es.
          destruct HL as [K|(x & K1 & K2)]; [rewrite K; apply orb_true_r|]. injection K1 as <-. now rewrite K2.
        - rewrite C. apply pred_none in Ea. subst l. destruct HL as [K|(x & K1 & _)]; [exact K|].
          discriminate. }
      assert (GU : match succ u with Some b => den false (t :: s0) (Lo b) | None => den false (t :: s0) PInf end = true).
      { destruct (succ u) as [b|] eqn:Eb.
        - rewrite B. assert (Es : pred b = Some u) by (clear - Eb; forder). rewrite Es.
          destruct HU as [K|(x & K1 & K2)]; [rewrite K; apply orb_true_r|]. injection K1 as <-. now rewrite K2.
        - rewrite D. apply succ_none in Eb. subst u. destruct HU as [K|(x & K1 & _)]; [exact K|].
          discriminate. }
      assert (Wf : raw_wf (denormalized (interval_raw i))) by (apply denormalized_tight_wf; now apply solid_tight).
      rewrite E in *.
      destruct (pred l) as [a|] eqn:Ea, (succ u) as [b|] eqn:Eb; try (apply isect_in_place_easy; [exact W|simpl; tauto]);
        (eapply isect_in_place_iff; [exact W|discriminate|exact Wf|exact I|reflexivity|reflexivity|]);
        unfold isect_fine, near_lower, near_upper, isect_right; rewrite GL, GU; reflexivity. }
    destruct K as (s' & E & W' & H). exists s'. split; auto. split; auto.
    intros x. unfold inS. rewrite H, andb_true_iff, Cv. reflexivity.
  Qed.
End PSel4.
